(* Invariant of the in-memory storage and its policies. *)
From Coq Require Import Lia ZifyBool ZifyNat ZifyN Sorting.Sorted Permutation.
From Verif Require Import Base BaseLemmas M_Tlv S_Tlv M_Str M_Name S_Name P_NameOrder M_Ims S_Ims P_Ims.

(* ---------- histories ---------- *)
Definition remv (f : list key) (l : list (list key)) := filter (fun g => negb (names_eqb g f)) l.
Definition upd (lru : bool) (l : list (list key)) (o : iobs) : list (list key) :=
  match o with
  | OIns f => remv f l ++ [f]
  | OAcc f => if lru then remv f l ++ [f] else l
  | ODel f | OEvict f => remv f l
  end.
Definition order (lru : bool) (h : list iobs) := fold_left (upd lru) h [].
Lemma order_snoc : forall lru h o, order lru (h ++ [o]) = upd lru (order lru h) o.
Proof. intros; unfold order; rewrite fold_left_app; reflexivity. Qed.
Lemma remv_in : forall f l g, In g (remv f l) <-> In g l /\ g <> f.
Proof. intros. unfold remv. rewrite (filter_In (fun g => negb (names_eqb g f))), negb_true_iff, names_eqb_neq. tauto. Qed.
Lemma remv_notin : forall f l, ~ In f l -> remv f l = l.
Proof.
  induction l as [|g l IH]; intro H; [reflexivity|]. cbn. destruct (names_eqb g f) eqn:E.
  - apply names_eqb_eq in E. exfalso. apply H; left; auto.
  - cbn. f_equal. apply IH. intro; apply H; right; auto.
Qed.

Definition before {A} (x y : A) (l : list A) := exists p m q, l = p ++ x :: m ++ y :: q.
Lemma before_cons : forall A (x y z : A) l, before x y (z :: l) <-> (x = z /\ In y l) \/ before x y l.
Proof.
  intros; split.
  - intros (p & m & q & E). destruct p as [|w p]; cbn in E; injection E as -> ->.
    + left. split; [reflexivity|]. apply in_or_app; right; left; reflexivity.
    + right. exists p, m, q; reflexivity.
  - intros [[-> I]|(p & m & q & ->)].
    + apply in_split in I. destruct I as (m & q & ->). exists [], m, q; reflexivity.
    + exists (z :: p), m, q; reflexivity.
Qed.
Lemma before_filter : forall A (f : A -> bool) x y l, before x y (filter f l) -> before x y l.
Proof.
  induction l as [|z l IH]; cbn [filter]; [auto|]. rewrite before_cons. destruct (f z).
  - rewrite before_cons. intros [[-> H]|H]; [left; split; [reflexivity|]|right; auto]. apply (filter_In f) in H. tauto.
  - intro H; right; auto.
Qed.
Lemma before_snoc : forall A (x y z : A) l, before x y (l ++ [z]) -> before x y l \/ (y = z /\ In x l).
Proof.
  induction l as [|w l IH]; cbn [app]; rewrite before_cons.
  - intros [[_ []]|(p & m & q & E)]. exfalso. apply (f_equal (@length A)) in E. rewrite app_length in E. cbn in E. lia.
  - intros [[-> H]|H].
    + apply in_app_or in H. destruct H as [H|[->|[]]]; [left; apply before_cons; auto | right; split; [reflexivity|left; reflexivity]].
    + destruct (IH H) as [H'|[-> H']]; [left; apply before_cons; auto | right; split; [reflexivity|right; exact H']].
Qed.

Definition kind_of (lru : bool) := if lru then is_use else is_insert.
Lemma earlier_snoc : forall lru h f g o, earlier (kind_of lru) h f g -> ~ kind_of lru f o -> earlier (kind_of lru) (h ++ [o]) f g.
Proof.
  intros lru h f g o (h1 & h2 & -> & A & o' & B & C) N. exists h1, (h2 ++ [o]). splits.
  - rewrite app_assoc; reflexivity.
  - intros x Hx. apply in_app_or in Hx. destruct Hx as [Hx|[<-|[]]]; auto.
  - exists o'. split; [apply in_or_app; auto | exact C].
Qed.
Lemma earlier_new : forall lru h f g o, kind_of lru g o -> ~ kind_of lru f o -> earlier (kind_of lru) (h ++ [o]) f g.
Proof.
  intros lru h f g o K N. exists h, [o]. splits; [reflexivity | intros x [<-|[]]; exact N | exists o; split; [left; reflexivity | exact K]].
Qed.
Lemma order_earlier : forall lru h f g, before f g (order lru h) -> earlier (kind_of lru) h f g.
Proof.
  intros lru h. induction h as [|o h IH] using rev_ind; intros f g.
  - intros (p & m & q & E). destruct p; discriminate.
  - rewrite order_snoc.
    assert (T : forall k, kind_of lru k o -> (forall f, f <> k -> ~ kind_of lru f o) -> before f g (remv k (order lru h) ++ [k]) ->
      earlier (kind_of lru) (h ++ [o]) f g).
    { intros k K U B. apply before_snoc in B. destruct B as [B|[-> B]].
      - assert (In f (remv k (order lru h))) by (destruct B as (p & m & q & ->); apply in_or_app; right; left; reflexivity).
        apply remv_in in H. apply earlier_snoc; [apply IH; eapply before_filter; exact B | apply U; tauto].
      - apply remv_in in B. apply earlier_new; [exact K | apply U; tauto]. }
    assert (D : forall k, (forall f, ~ kind_of lru f o) -> before f g (remv k (order lru h)) -> earlier (kind_of lru) (h ++ [o]) f g).
    { intros k U B. apply earlier_snoc; [apply IH; eapply before_filter; exact B | apply U]. }
    unfold kind_of in *. destruct o as [k|k|k|k]; cbn [upd].
    + apply T; destruct lru; unfold is_use, is_insert; auto; intros; intro; intuition congruence.
    + destruct lru.
      * apply T; unfold is_use, is_insert; auto; intros; intro; intuition congruence.
      * intro B. apply (earlier_snoc false); [apply IH; exact B|]. intro H; discriminate.
    + apply D. destruct lru; unfold is_use, is_insert; intros; intro; intuition congruence.
    + apply D. destruct lru; unfold is_use, is_insert; intros; intro; intuition congruence.
Qed.

Lemma present_nil : forall f, ~ present [] f.
Proof. intros f (h1 & h2 & E & _). destruct h1; discriminate. Qed.
Lemma present_ins : forall h f g, present (h ++ [OIns f]) g <-> g = f \/ present h g.
Proof.
  intros h f g; split.
  - intros (h1 & h2 & E & H). destruct h2 as [|o h2 _] using rev_ind.
    + apply app_inj_tail in E. destruct E as [_ E]. injection E as ->; auto.
    + rewrite app_comm_cons, app_assoc in E. apply app_inj_tail in E. destruct E as [-> <-]. right.
      exists h1, h2. split; [reflexivity|]. intros; apply H; apply in_or_app; auto.
  - intros [->|(h1 & h2 & -> & H)].
    + exists h, []. split; [reflexivity | intros o []].
    + exists h1, (h2 ++ [OIns f]). split; [rewrite <- app_assoc; reflexivity|]. intros o Ho. apply in_app_or in Ho. destruct Ho as [Ho|[<-|[]]]; auto.
      intros [X|X]; discriminate.
Qed.
Lemma present_acc : forall h f g, present (h ++ [OAcc f]) g <-> present h g.
Proof.
  intros h f g; split.
  - intros (h1 & h2 & E & H). destruct h2 as [|o h2 _] using rev_ind.
    + apply app_inj_tail in E. destruct E as [_ E]. discriminate.
    + rewrite app_comm_cons, app_assoc in E. apply app_inj_tail in E. destruct E as [-> <-].
      exists h1, h2. split; [reflexivity|]. intros; apply H; apply in_or_app; auto.
  - intros (h1 & h2 & -> & H).
    exists h1, (h2 ++ [OAcc f]). split; [rewrite <- app_assoc; reflexivity|]. intros o Ho. apply in_app_or in Ho. destruct Ho as [Ho|[<-|[]]]; auto.
      intros [X|X]; discriminate.
Qed.
Lemma present_del : forall h f g o, is_removal f o -> present (h ++ [o]) g <-> present h g /\ g <> f.
Proof.
  intros h f g o R; split.
  - intros (h1 & h2 & E & H). destruct h2 as [|o' h2 _] using rev_ind.
    + apply app_inj_tail in E. destruct E as [_ E]. destruct R; congruence.
    + rewrite app_comm_cons, app_assoc in E. apply app_inj_tail in E. destruct E as [-> <-]. split.
      * exists h1, h2. split; [reflexivity|]. intros; apply H; apply in_or_app; auto.
      * intros ->. apply (H o); [apply in_or_app; right; left; reflexivity | exact R].
  - intros [(h1 & h2 & -> & H) N].
    exists h1, (h2 ++ [o]). split; [rewrite <- app_assoc; reflexivity|]. intros x Hx. apply in_app_or in Hx. destruct Hx as [Hx|[<-|[]]]; auto.
    intros [X|X]; destruct R as [R|R]; congruence.
Qed.

(* ---------- the index of a policy ---------- *)
Definition R (c : list ent) (x : nat * N) (f : list key) : Prop := exists e, In e c /\ en_ptr e = fst x /\ en_full e = f.
Definition isorted (l : list (nat * N)) := StronglySorted (fun a b => snd a <= snd b) l.
Definition lfu_ok (c : list ent) (l : list (nat * N)) (h : list iobs) (k : N) : Prop :=
  isorted l /\ NoDup (map fst l) /\
  (forall x, In x l -> snd x <= k /\ exists e, In e c /\ en_ptr e = fst x /\ accesses (en_full e) h (snd x)) /\
  (forall e, In e c -> In (en_ptr e) (map fst l)).
Definition idx_ok (pol : policy) (c : list ent) (l : list (nat * N)) (h : list iobs) (k : N) : Prop :=
  match pol with
  | FIFO => Forall2 (R c) l (order false h)
  | LRU => Forall2 (R c) l (order true h)
  | LFU => lfu_ok c l h k
  | PERSISTENT => True
  end.

Lemma Forall2_filter : forall A B (P Q : A -> B -> Prop) (pa : A -> bool) (pb : B -> bool) l m, Forall2 P l m ->
  (forall x y, P x y -> pa x = pb y) -> (forall x y, P x y -> pa x = true -> Q x y) -> Forall2 Q (filter pa l) (filter pb m).
Proof.
  intros A B P Q pa pb l m F H1 H2. induction F as [|x y l m H F IH]; cbn; [constructor|].
  rewrite <- (H1 _ _ H). destruct (pa x) eqn:E; [constructor; auto | exact IH].
Qed.
Lemma Forall2_mono : forall A B (P Q : A -> B -> Prop) l m, (forall x y, P x y -> Q x y) -> Forall2 P l m -> Forall2 Q l m.
Proof. intros A B P Q l m H F. induction F; constructor; auto. Qed.

Lemma ptr_inj : forall c a b, NoDup (map en_ptr c) -> In a c -> In b c -> en_ptr a = en_ptr b -> a = b.
Proof.
  induction c as [|e c IH]; intros a b N Ha Hb E; [destruct Ha|]. cbn in N. inversion N; subst.
  destruct Ha as [<-|Ha], Hb as [<-|Hb]; auto.
  - exfalso. apply H1. rewrite E. apply in_map; auto.
  - exfalso. apply H1. rewrite <- E. apply in_map; auto.
Qed.

Lemma isorted_cons : forall x l, isorted (x :: l) <-> isorted l /\ forall y, In y l -> snd x <= snd y.
Proof.
  intros; split; [intro H; inversion H; subst; rewrite Forall_forall in *; auto | intros [A B]; constructor; auto; apply Forall_forall; auto].
Qed.
Lemma isorted_app : forall a b, isorted (a ++ b) <-> isorted a /\ isorted b /\ forall x y, In x a -> In y b -> snd x <= snd y.
Proof.
  induction a as [|e a IH]; intros b; cbn [app].
  - split; [intro H; splits; [constructor|exact H|intros x y []] | tauto].
  - rewrite !isorted_cons, IH. split.
    + intros [[A [B C]] D]. splits; auto; [intros; apply D; apply in_or_app; auto|]. intros x y [<-|Hx] Hy; auto. apply D; apply in_or_app; auto.
    + intros [[A D] [B C]]. splits; auto; intros; [apply C; [right|]; auto | ].
      apply in_app_or in H. destruct H; auto. apply C; [left; reflexivity | auto].
Qed.
Lemma isorted_filter : forall f l, isorted l -> isorted (filter f l).
Proof.
  induction l as [|e l IH]; intro H; cbn [filter]; [constructor|]. apply isorted_cons in H. destruct H as [A B].
  destruct (f e); [|auto]. apply isorted_cons; split; [auto|]. intros x Hx. apply (filter_In f) in Hx. apply B; tauto.
Qed.
Lemma idx_insert_perm : forall x l, Permutation (idx_insert x l) (x :: l).
Proof. induction l as [|y l IH]; cbn [idx_insert]; [reflexivity|]. destruct (_ <? _); [reflexivity|]. rewrite IH. apply perm_swap. Qed.
Lemma idx_insert_sorted : forall x l, isorted l -> isorted (idx_insert x l).
Proof.
  induction l as [|y l IH]; intro H; cbn [idx_insert].
  - apply isorted_cons; split; [constructor | intros ? []].
  - destruct (snd x <? snd y) eqn:E.
    + apply isorted_cons; split; [exact H|]. intros z Hz. apply isorted_cons in H. destruct H as [_ H]. destruct Hz as [<-|Hz]; [lia|].
      specialize (H _ Hz). lia.
    + apply isorted_cons in H. destruct H as [A B]. apply isorted_cons; split; [auto|]. intros z Hz.
      apply (Permutation_in _ (idx_insert_perm x l)) in Hz. destruct Hz as [<-|Hz]; [lia | auto].
Qed.
Lemma idx_bump_spec : forall p f l1 l2 prev, ~ In p (map fst l1) -> isorted (prev ++ l1 ++ (p, f) :: l2) -> f + 1 < two64 ->
  exists l', idx_bump p prev (l1 ++ (p, f) :: l2) = Some l' /\ Permutation l' ((p, f + 1) :: prev ++ l1 ++ l2) /\ isorted l'.
Proof.
  intros p f l1 l2. induction l1 as [|x l1 IH]; intros prev N S L; cbn [idx_bump app].
  - cbn [fst snd]. rewrite Nat.eqb_refl. rewrite N.mod_small by exact L. cbn [app] in S.
    eexists. split; [reflexivity|].
    destruct (match rev prev with y :: _ => _ | [] => _ end && match l2 with y :: _ => _ | [] => _ end) eqn:E.
    + split; [symmetry; apply Permutation_middle|]. apply andb_true_iff in E. destruct E as [_ E].
      apply isorted_app in S. destruct S as (S1 & S2 & S3). apply isorted_cons in S2. destruct S2 as [S2 S4].
      apply isorted_app; splits; auto.
      * apply isorted_cons; split; [exact S2|]. intros y Hy. cbn [snd]. destruct l2 as [|z l2]; [destruct Hy|].
        apply negb_true_iff in E. apply isorted_cons in S2. destruct S2 as [_ S2]. destruct Hy as [<-|Hy]; [lia|]. specialize (S2 _ Hy). lia.
      * intros x y Hx [<-|Hy]; [specialize (S3 x (p, f) Hx (or_introl eq_refl)); cbn [snd] in *; lia | apply S3; [exact Hx | right; exact Hy]].
    + split; [apply idx_insert_perm|]. apply idx_insert_sorted. apply isorted_app in S. destruct S as (S1 & S2 & S3). apply isorted_cons in S2.
      apply isorted_app; splits; auto; try tauto. intros x y Hx Hy. apply S3; [exact Hx|right; exact Hy].
  - cbn [map] in N. destruct (Nat.eqb (fst x) p) eqn:E.
    + apply Nat.eqb_eq in E. exfalso. apply N; left; exact E.
    + destruct (IH (prev ++ [x])) as (l' & A & B & C); [intro; apply N; right; auto | rewrite <- app_assoc; exact S | exact L|].
      exists l'. splits; auto. rewrite <- app_assoc in B. exact B.
Qed.

Lemma idx_remove_ok : forall pol c l h k e o, idx_ok pol c l h k -> sorted c -> NoDup (map en_ptr c) -> In e c -> is_removal (en_full e) o ->
  idx_ok pol (filter (fun x => negb (names_eqb (en_full x) (en_full e))) c) (match pol with PERSISTENT => l | _ => idx_remove (en_ptr e) l end) (h ++ [o]) k.
Proof.
  intros pol c l h k e o I S N He Ho.
  assert (key : forall x f, R c x f -> negb (Nat.eqb (fst x) (en_ptr e)) = negb (names_eqb f (en_full e))).
  { intros x f (e' & A & B & C). f_equal. destruct (names_eqb f (en_full e)) eqn:E.
    - apply names_eqb_eq in E. apply Nat.eqb_eq. rewrite <- B. f_equal. eapply sorted_full_inj; eauto. congruence.
    - apply Nat.eqb_neq. intro X. apply names_eqb_neq in E. apply E. rewrite <- C. f_equal. eapply ptr_inj; eauto. congruence. }
  assert (keep : forall x f, R c x f -> negb (Nat.eqb (fst x) (en_ptr e)) = true ->
    R (filter (fun x => negb (names_eqb (en_full x) (en_full e))) c) x f).
  { intros x f HR X. rewrite (key _ _ HR) in X. destruct HR as (e' & A & B & C). exists e'. splits; auto.
    apply filter_In. split; [exact A|]. rewrite C. exact X. }
  destruct pol; cbn [idx_ok] in *; [| | |exact I].
  1, 2: rewrite order_snoc; destruct Ho as [-> | ->]; cbn [upd]; unfold idx_remove, remv; eapply Forall2_filter; eauto.
  destruct I as (I1 & I2 & I3 & I4). unfold lfu_ok, idx_remove. splits.
  - apply isorted_filter; exact I1.
  - clear - I2. induction l as [|x l IH]; cbn in *; [constructor|]. inversion I2; subst. destruct (negb _); cbn; [|auto]. constructor; [|auto].
    intro H. apply H1. apply in_map_iff in H. destruct H as (y & A & B). apply filter_In in B. apply in_map_iff. exists y; tauto.
  - intros x Hx. apply filter_In in Hx. destruct Hx as [Hx Hn]. destruct (I3 _ Hx) as (B & e' & A1 & A2 & A3). split; [exact B|].
    exists e'. splits; auto.
    + apply filter_In. split; [exact A1|]. rewrite <- (key x (en_full e')); [exact Hn | exists e'; auto].
    + apply acc_other; [exact A3 | |]; destruct Ho as [-> | ->]; discriminate.
  - intros e' H. apply filter_In in H. destruct H as [H X]. specialize (I4 _ H). apply in_map_iff in I4. destruct I4 as (x & A & B).
    apply in_map_iff. exists x. split; [exact A|]. apply filter_In. split; [exact B|]. rewrite (key x (en_full e')); [exact X | exists e'; auto].
Qed.

Lemma idx_ins_ok : forall pol c l h k e, idx_ok pol c l h k -> (forall x, In x c -> en_full x <> en_full e) -> ~ In (en_ptr e) (map en_ptr c) ->
  (forall lru f, In f (order lru h) -> exists x, In x c /\ en_full x = f) ->
  idx_ok pol (ent_insert e c) (match pol with PERSISTENT => l | LFU => idx_insert (en_ptr e, 0) l | _ => l ++ [(en_ptr e, 0)] end) (h ++ [OIns (en_full e)]) (k + 1).
Proof.
  intros pol c l h k e I NF NP HO.
  assert (inc : forall x, In x (ent_insert e c) <-> x = e \/ In x c).
  { intro x. split; intro H.
    - apply (Permutation_in _ (ent_insert_perm e c)) in H. destruct H; auto.
    - apply (Permutation_in _ (Permutation_sym (ent_insert_perm e c))). destruct H as [->|H]; [left; reflexivity | right; exact H]. }
  assert (NO : forall lru, ~ In (en_full e) (order lru h)) by (intros lru H; apply HO in H; destruct H as (x & A & B); exact (NF _ A B)).
  destruct pol; cbn [idx_ok] in *; [| | |exact I].
  1, 2: rewrite order_snoc; cbn [upd]; rewrite remv_notin by apply NO; apply Forall2_app;
    [eapply Forall2_mono; [|exact I]; intros x f (e' & A & B & C); exists e'; splits; auto; apply inc; auto
    | constructor; [|constructor]; exists e; splits; auto; apply inc; auto].
  destruct I as (I1 & I2 & I3 & I4). pose proof (idx_insert_perm (en_ptr e, 0) l) as P. unfold lfu_ok; splits.
  - apply idx_insert_sorted; exact I1.
  - apply (Permutation_NoDup (l := map fst ((en_ptr e, 0) :: l))); [apply Permutation_map; symmetry; exact P|].
    cbn. constructor; [|exact I2]. intro H. apply in_map_iff in H. destruct H as (x & A & B). destruct (I3 _ B) as (_ & e' & C1 & C2 & _).
    apply NP. rewrite <- A, <- C2. apply in_map; exact C1.
  - intros x Hx. apply (Permutation_in _ P) in Hx. destruct Hx as [<-|Hx].
    + cbn [fst snd]. split; [lia|]. exists e. splits; auto; [apply inc; auto | constructor].
    + destruct (I3 _ Hx) as (B & e' & C1 & C2 & C3). split; [lia|]. exists e'. splits; auto; [apply inc; auto|].
      apply acc_other; [exact C3 | | discriminate]. intro E. injection E as E. apply (NF _ C1); symmetry; exact E.
  - intros x Hx. apply (Permutation_in (l := map fst ((en_ptr e, 0) :: l))); [apply Permutation_map; symmetry; exact P|].
    apply inc in Hx. destruct Hx as [->|Hx]; [left; reflexivity | right; apply I4; exact Hx].
Qed.

Lemma in_map_split : forall p (l : list (nat * N)), In p (map fst l) -> exists f l1 l2, l = l1 ++ (p, f) :: l2 /\ ~ In p (map fst l1).
Proof.
  induction l as [|[q f] l IH]; intro H; [destruct H|]. destruct (Nat.eq_dec q p) as [->|N].
  - exists f, [], l. split; [reflexivity | intros []].
  - destruct H as [H|H]; [cbn in H; congruence|]. destruct (IH H) as (f' & l1 & l2 & -> & X). exists f', ((q, f) :: l1), l2.
    split; [reflexivity|]. intros [Y|Y]; [cbn in Y; congruence | exact (X Y)].
Qed.

Lemma idx_acc_ok : forall pol s h k e, idx_ok (im_policy s) (im_cache s) (im_index s) h k -> pol = im_policy s -> k + 1 < two64 ->
  sorted (im_cache s) -> NoDup (map en_ptr (im_cache s)) -> In e (im_cache s) ->
  exists l, im_afterAccess (en_ptr e) s = Ok (setIndex l s) /\ idx_ok pol (im_cache s) l (h ++ [OAcc (en_full e)]) (k + 1).
Proof.
  intros pol s h k e I -> K S N He. unfold im_afterAccess.
  destruct (im_policy s) eqn:EP; cbn [idx_ok] in *.
  - exists (im_index s). split; [destruct s; reflexivity|]. rewrite order_snoc. exact I.
  - unfold im_afterInsert, im_beforeErase. rewrite EP. cbn [im_policy setIndex im_set]. rewrite EP.
    eexists. split; [unfold setIndex, im_set; cbn; rewrite EP; reflexivity|]. rewrite order_snoc. cbn [upd]. apply Forall2_app.
    + unfold idx_remove, remv. eapply Forall2_filter; [exact I | |auto].
      intros x f (e' & A & B & C). f_equal. destruct (names_eqb f (en_full e)) eqn:E.
      * apply names_eqb_eq in E. apply Nat.eqb_eq. rewrite <- B. f_equal. eapply sorted_full_inj; eauto. congruence.
      * apply Nat.eqb_neq. intro X. apply names_eqb_neq in E. apply E. rewrite <- C. f_equal. eapply ptr_inj; eauto. congruence.
    + constructor; [|constructor]. exists e; auto.
  - destruct I as (I1 & I2 & I3 & I4). destruct (in_map_split (en_ptr e) (im_index s) (I4 _ He)) as (f & l1 & l2 & El & Nl).
    assert (Hx : In (en_ptr e, f) (im_index s)) by (rewrite El; apply in_or_app; right; left; reflexivity).
    destruct (I3 _ Hx) as (B & e' & C1 & C2 & C3). cbn [fst snd] in *.
    assert (e' = e) by (eapply ptr_inj; eauto). subst e'.
    destruct (idx_bump_spec (en_ptr e) f l1 l2 [] Nl) as (l' & A1 & A2 & A3); [rewrite <- El; exact I1 | lia|].
    rewrite El, A1. exists l'. split; [reflexivity|]. cbn [app] in A2. unfold lfu_ok; splits.
    + exact A3.
    + apply (Permutation_NoDup (l := map fst ((en_ptr e, f + 1) :: l1 ++ l2))); [apply Permutation_map; symmetry; exact A2|].
      rewrite El in I2. cbn [map fst]. rewrite map_app in *. cbn [map fst] in I2. apply (Permutation_NoDup (l := map fst l1 ++ en_ptr e :: map fst l2)); [|exact I2].
      symmetry; apply Permutation_middle.
    + intros x Hx'. apply (Permutation_in _ A2) in Hx'. destruct Hx' as [<-|Hx'].
      * cbn [fst snd]. split; [lia|]. exists e; splits; auto. constructor; exact C3.
      * assert (Hin : In x (im_index s)) by (rewrite El; apply in_app_or in Hx'; apply in_or_app; cbn; tauto).
        destruct (I3 _ Hin) as (B' & e'' & D1 & D2 & D3). split; [lia|]. exists e''; splits; auto. apply acc_other; [exact D3 | discriminate|].
        intro E. injection E as E. assert (e'' = e) by (eapply sorted_full_inj; eauto). subst e''.
        rewrite El, map_app in I2. cbn [map fst] in I2. apply NoDup_remove_2 in I2. apply I2. rewrite <- map_app, D2. apply in_map; exact Hx'.
    + intros x Hx'. specialize (I4 _ Hx'). apply (Permutation_in (l := map fst ((en_ptr e, f + 1) :: l1 ++ l2))); [apply Permutation_map; symmetry; exact A2|].
      rewrite El, map_app in I4. cbn [map fst] in *. rewrite map_app. apply in_app_or in I4. cbn in I4. cbn. rewrite in_app_iff. tauto.
  - exists (im_index s). split; [destruct s; reflexivity|exact I].
Qed.

(* ---------- the invariant ---------- *)
Record Inv (k : N) (h : list iobs) (s : ims) : Prop := mkInv {
  i_sorted : sorted (im_cache s);
  i_n : im_n s = nlen (im_cache s);
  i_cap : im_n s + nlen (im_free s) = im_cap s;
  i_min : 16 <= im_cap s <= im_limit s;
  i_k : im_cap s <= 2 * k + 16;
  i_len : im_n s <= k;
  i_pers : im_policy s = PERSISTENT -> im_limit s = SIZE_MAX;
  i_ptr : NoDup (map en_ptr (im_cache s) ++ im_free s);
  i_new : forall p, In p (map en_ptr (im_cache s) ++ im_free s) -> (p < im_new s)%nat;
  i_pres : forall f, present h f <-> exists e, In e (im_cache s) /\ en_full e = f;
  i_ord : forall lru f, In f (order lru h) <-> present h f;
  i_idx : idx_ok (im_policy s) (im_cache s) (im_index s) h k }.

Lemma idx_mono : forall pol c l h k k', k <= k' -> idx_ok pol c l h k -> idx_ok pol c l h k'.
Proof.
  intros pol c l h k k' L I. destruct pol; cbn [idx_ok] in *; auto. destruct I as (A & B & C & D). unfold lfu_ok; splits; auto.
  intros x Hx. destruct (C _ Hx) as (X & Y). split; [lia | exact Y].
Qed.
Lemma Inv_mono : forall k k' h s, k <= k' -> Inv k h s -> Inv k' h s.
Proof. intros k k' h s L []. constructor; auto; try lia. eapply idx_mono; eauto. Qed.

Lemma NoDup_app_l : forall A (a b : list A), NoDup (a ++ b) -> NoDup a.
Proof. induction a as [|x a IH]; intros b H; [constructor|]. cbn in H. inversion H; subst. constructor; [intro; apply H2; apply in_or_app; auto | eauto]. Qed.
Lemma Inv_ptr : forall k h s, Inv k h s -> NoDup (map en_ptr (im_cache s)).
Proof. intros k h s I. eapply NoDup_app_l. exact (i_ptr _ _ _ I). Qed.

Lemma filter_split : forall c e, sorted c -> In e c -> Permutation c (e :: filter (fun x => negb (names_eqb (en_full x) (en_full e))) c).
Proof.
  induction c as [|x c IH]; intros e S H; [destruct H|]. assert (S0 := S). apply sorted_cons in S. destruct S as [S F]. rewrite Forall_forall in F.
  cbn [filter]. destruct (names_eqb (en_full x) (en_full e)) eqn:E; cbn [negb].
  - apply names_eqb_eq in E. assert (x = e) by (apply (sorted_full_inj (x :: c)); auto; left; reflexivity). subst x.
    apply perm_skip. assert (forall y, In y c -> negb (names_eqb (en_full y) (en_full e)) = true).
    { intros y Hy. apply negb_true_iff, names_eqb_neq. intro X. specialize (F _ Hy). unfold elt in F. rewrite X in F. exact (names_lt_irr _ F). }
    clear - H0. induction c as [|y c IH]; cbn; [reflexivity|]. rewrite (H0 y) by (left; reflexivity). apply perm_skip. apply IH. intros; apply H0; right; auto.
  - destruct H as [->|H]; [exfalso; apply names_eqb_neq in E; auto|]. rewrite (IH e S H) at 1. apply perm_swap.
Qed.

Lemma Inv_remove : forall k h s e o, Inv k h s -> In e (im_cache s) -> is_removal (en_full e) o ->
  Inv k (h ++ [o]) (im_freeEntry e (im_beforeErase (en_ptr e) s)).
Proof.
  intros k h s e o I He Ho. destruct I as [S Hn Hc Hm Hk Hl Hp Hd Hw Hr Hor Hi].
  set (c' := filter (fun x => negb (names_eqb (en_full x) (en_full e))) (im_cache s)).
  assert (Es : im_freeEntry e (im_beforeErase (en_ptr e) s) =
    im_set s (im_cap s) (im_n s - 1) c' (en_ptr e :: im_free s) (im_new s) (match im_policy s with PERSISTENT => im_index s | _ => idx_remove (en_ptr e) (im_index s) end)).
  { unfold im_freeEntry, im_beforeErase, setIndex. destruct (im_policy s); reflexivity. }
  rewrite Es. clear Es. pose proof (filter_split _ _ S He) as P. fold c' in P.
  assert (Ln : nlen (im_cache s) = 1 + nlen c') by (unfold nlen; rewrite (Permutation_length P); cbn [length]; lia).
  assert (inc : forall x, In x c' <-> In x (im_cache s) /\ en_full x <> en_full e).
  { intro x. unfold c'. rewrite (filter_In (fun x => negb (names_eqb (en_full x) (en_full e)))), negb_true_iff, names_eqb_neq. tauto. }
  assert (PP : Permutation (map en_ptr (im_cache s) ++ im_free s) (map en_ptr c' ++ en_ptr e :: im_free s)).
  { rewrite (Permutation_map en_ptr P). cbn [map app]. apply Permutation_middle. }
  constructor; cbn [im_set im_policy im_limit im_cap im_n im_cache im_free im_new im_index]; auto; try lia.
  - apply sorted_filter; exact S.
  - unfold nlen in *. cbn [length]. lia.
  - exact (Permutation_NoDup PP Hd).
  - intros p H. apply Hw. exact (Permutation_in _ (Permutation_sym PP) H).
  - intro f. rewrite (present_del h (en_full e) f o Ho), Hr. split.
    + intros [(x & A & B) N]. exists x. split; [apply inc; split; [exact A | congruence] | exact B].
    + intros (x & A & B). apply inc in A. split; [exists x; tauto|]. rewrite <- B. tauto.
  - intros lru f. rewrite order_snoc, (present_del h (en_full e) f o Ho). destruct Ho as [-> | ->]; cbn [upd]; rewrite remv_in, Hor; tauto.
  - apply idx_remove_ok; auto. exact (NoDup_app_l _ _ _ Hd).
Qed.

Lemma Inv_add : forall k h s p t ptr free, Inv k h s -> im_free s = ptr :: free -> (forall x, In x (im_cache s) -> en_full x <> pk_full p) ->
  Inv (k + 1) (h ++ [OIns (pk_full p)])
    (im_afterInsert ptr (im_set s (im_cap s) (im_n s + 1) (ent_insert (mkEnt ptr p true t) (im_cache s)) free (im_new s) (im_index s))).
Proof.
  intros k h s p t ptr free I Hf NF. destruct I as [S Hn Hc Hm Hk Hl Hp Hd Hw Hr Hor Hi].
  set (e := mkEnt ptr p true t). change (pk_full p) with (en_full e) in *. change ptr with (en_ptr e) at 1.
  match goal with |- Inv _ _ ?x => replace x with
    (im_set s (im_cap s) (im_n s + 1) (ent_insert e (im_cache s)) free (im_new s)
      (match im_policy s with PERSISTENT => im_index s | LFU => idx_insert (en_ptr e, 0) (im_index s) | _ => im_index s ++ [(en_ptr e, 0)] end)) end.
  2:{ unfold im_afterInsert, setIndex. cbn [im_set im_policy]. destruct (im_policy s) eqn:E; unfold im_set; cbn; rewrite ?E; reflexivity. }
  pose proof (ent_insert_perm e (im_cache s)) as P.
  assert (PP : Permutation (map en_ptr (im_cache s) ++ im_free s) (map en_ptr (ent_insert e (im_cache s)) ++ free)).
  { rewrite Hf, (Permutation_map en_ptr P). cbn [map app]. symmetry. apply Permutation_middle. }
  assert (NP : ~ In (en_ptr e) (map en_ptr (im_cache s))).
  { intro H. rewrite Hf in Hd. apply NoDup_remove_2 in Hd. apply Hd. apply in_or_app; left; exact H. }
  assert (inc : forall x, In x (ent_insert e (im_cache s)) <-> x = e \/ In x (im_cache s)).
  { intro x. split; intro H.
    - apply (Permutation_in _ P) in H. destruct H; auto.
    - apply (Permutation_in _ (Permutation_sym P)). destruct H as [->|H]; [left; reflexivity | right; exact H]. }
  assert (Lf : nlen (im_free s) = 1 + nlen free) by (rewrite Hf; unfold nlen; cbn [length]; lia).
  constructor; cbn [im_set im_policy im_limit im_cap im_n im_cache im_free im_new im_index]; auto; try lia.
  - apply ent_insert_sorted; auto.
  - unfold nlen in *. rewrite (Permutation_length P). cbn [length]. lia.
  - exact (Permutation_NoDup PP Hd).
  - intros x H. apply Hw. exact (Permutation_in _ (Permutation_sym PP) H).
  - intro f. rewrite present_ins, Hr. split.
    + intros [->|(x & A & B)]; [exists e; split; [apply inc; auto | reflexivity] | exists x; split; [apply inc; auto | exact B]].
    + intros (x & A & B). apply inc in A. destruct A as [->|A]; [left; auto | right; exists x; auto].
  - intros lru f. rewrite order_snoc, present_ins, <- (Hor lru). cbn [upd]. rewrite in_app_iff, remv_in. cbn [In].
    destruct (names_eqb f (en_full e)) eqn:E; [apply names_eqb_eq in E | apply names_eqb_neq in E]; intuition congruence.
  - apply idx_ins_ok; auto. intros lru f H. apply Hor, Hr in H. exact H.
Qed.

Lemma Inv_access : forall k h s e, Inv k h s -> k + 1 < two64 -> In e (im_cache s) ->
  exists s', im_afterAccess (en_ptr e) s = Ok s' /\ Inv (k + 1) (h ++ [OAcc (en_full e)]) s' /\ im_cache s' = im_cache s.
Proof.
  intros k h s e I K He. assert (Hi := i_idx _ _ _ I). assert (Np := Inv_ptr _ _ _ I).
  destruct (idx_acc_ok (im_policy s) s h k e Hi eq_refl K (i_sorted _ _ _ I) Np He) as (l & A & B).
  exists (setIndex l s). splits; auto. destruct I as [S Hn Hc Hm Hk Hl Hp Hd Hw Hr Hor _].
  constructor; unfold setIndex; cbn [im_set im_policy im_limit im_cap im_n im_cache im_free im_new im_index]; auto; try lia.
  - intro f. rewrite present_acc. apply Hr.
  - intros lru f. rewrite order_snoc, present_acc, <- (Hor lru). cbn [upd]. destruct lru; [|reflexivity].
    rewrite in_app_iff, remv_in. cbn [In].
    assert (X : In (en_full e) (order true h)) by (apply Hor, Hr; exists e; auto).
    destruct (names_eqb f (en_full e)) eqn:E; [apply names_eqb_eq in E | apply names_eqb_neq in E]; intuition congruence.
Qed.

Lemma Inv_victim : forall k h s p n rest e, Inv k h s -> im_policy s <> PERSISTENT -> im_index s = (p, n) :: rest ->
  In e (im_cache s) -> en_ptr e = p -> victim (im_policy s) h (en_full e).
Proof.
  intros k h s p n rest e I NP Ei He Hp. assert (Np := Inv_ptr _ _ _ I). destruct I as [S Hn Hc Hm Hk Hl _ Hd Hw Hr Hor Hi].
  split; [apply Hr; exists e; auto|]. intros g Hg Ng.
  assert (seq : forall lru, Forall2 (R (im_cache s)) (im_index s) (order lru h) -> earlier (kind_of lru) h (en_full e) g).
  { intros lru F. rewrite Ei in F. destruct (order lru h) as [|f0 r] eqn:Eo; inversion F as [|? ? ? ? H1 H2]; subst.
    destruct H1 as (e' & A & B & C). cbn [fst] in B. assert (e' = e) by (eapply ptr_inj; eauto). subst e'.
    apply order_earlier. rewrite Eo. apply before_cons. left. split; [exact C|].
    apply (Hor lru) in Hg. rewrite Eo in Hg. destruct Hg as [Hg|Hg]; [congruence | exact Hg]. }
  destruct (im_policy s) eqn:EP; [exact (seq false Hi) | exact (seq true Hi) | | congruence].
  cbn [idx_ok] in Hi. destruct Hi as (I1 & I2 & I3 & I4). rewrite Ei in *.
  destruct (I3 (p, n) (or_introl eq_refl)) as (_ & e' & A & B & C). cbn [fst snd] in *.
  assert (e' = e) by (eapply ptr_inj; eauto; congruence). subst e'.
  apply Hr in Hg. destruct Hg as (e2 & D & E). specialize (I4 _ D). apply in_map_iff in I4. destruct I4 as ([p2 m] & F & G).
  cbn [fst] in F. subst p2. destruct (I3 _ G) as (_ & e3 & J1 & J2 & J3). cbn [fst snd] in *.
  assert (e3 = e2) by (eapply ptr_inj; eauto). subst e3.
  exists n, m. rewrite <- E. splits; auto. apply isorted_cons in I1. destruct I1 as [_ I1]. destruct G as [G|G]; [injection G; intros; subst; lia | exact (I1 _ G)].
Qed.

Lemma idx_remove_head : forall p n rest, NoDup (map fst ((p, n) :: rest)) -> idx_remove p ((p, n) :: rest) = rest.
Proof.
  intros p n rest H. unfold idx_remove. cbn [filter fst]. rewrite Nat.eqb_refl. cbn. inversion H; subst. clear H. cbn [fst] in *.
  induction rest as [|x r IH]; [reflexivity|]. cbn. destruct (Nat.eqb (fst x) p) eqn:E.
  - exfalso. apply H2. apply Nat.eqb_eq in E. left; exact E.
  - cbn. f_equal. cbn in H2, H3. inversion H3; subst. apply IH; tauto.
Qed.

Lemma order_nodup : forall lru h, NoDup (order lru h).
Proof.
  intros lru h. induction h as [|o h IH] using rev_ind; [constructor|]. rewrite order_snoc.
  assert (A : forall f, NoDup (remv f (order lru h))) by (intro; apply NoDup_filter; exact IH).
  assert (B : forall f, NoDup (remv f (order lru h) ++ [f])).
  { intro f. apply (Permutation_NoDup (l := f :: remv f (order lru h))); [apply Permutation_cons_append|].
    constructor; [|apply A]. intro H. apply remv_in in H. tauto. }
  destruct o; cbn [upd]; auto. destruct lru; auto.
Qed.
Lemma Inv_index_nodup : forall k h s, Inv k h s -> im_policy s <> PERSISTENT -> NoDup (map fst (im_index s)).
Proof.
  intros k h s I NP. assert (Np := Inv_ptr _ _ _ I). assert (Hi := i_idx _ _ _ I).
  assert (G : forall lru, Forall2 (R (im_cache s)) (im_index s) (order lru h) -> NoDup (map fst (im_index s))).
  { clear Hi. intros lru F. assert (N := order_nodup lru h). induction F as [|x f l m HR F IH]; cbn; [constructor|]. inversion N; subst.
    constructor; [|auto]. intro H. apply in_map_iff in H. destruct H as (y & E & Hy). apply H1.
    assert (X : exists g, In g m /\ R (im_cache s) y g).
    { clear - F Hy. induction F as [|a b l m HR F IH]; [destruct Hy|]. destruct Hy as [<-|Hy]; [exists b; split; [left; reflexivity|exact HR]|].
      destruct (IH Hy) as (g & A & B). exists g; split; [right; exact A|exact B]. }
    destruct X as (g & A & e' & B & C & D). destruct HR as (e & B' & C' & D'). assert (e' = e) by (eapply ptr_inj; eauto; congruence). subst e'. replace f with g by congruence. exact A. }
  destruct (im_policy s); [exact (G _ Hi) | exact (G _ Hi) | destruct Hi; tauto | congruence].
Qed.

Lemma Inv_evict : forall k h s, Inv k h s -> im_policy s <> PERSISTENT -> im_n s <> 0 ->
  exists e s', im_evictItem s = Ok (true, s', [OEvict (en_full e)]) /\ In e (im_cache s) /\ victim (im_policy s) h (en_full e) /\
    Inv k (h ++ [OEvict (en_full e)]) s' /\
    im_cache s' = filter (fun x => negb (names_eqb (en_full x) (en_full e))) (im_cache s) /\
    im_cap s' = im_cap s /\ im_limit s' = im_limit s /\ im_n s' = im_n s - 1 /\ im_policy s' = im_policy s /\ im_sched s' = im_sched s.
Proof.
  intros k h s I NP N0. assert (Np := Inv_ptr _ _ _ I). assert (Nx := Inv_index_nodup _ _ _ I NP).
  assert (H : exists p n rest e, im_index s = (p, n) :: rest /\ In e (im_cache s) /\ en_ptr e = p).
  { assert (Hn := i_n _ _ _ I). destruct (im_cache s) as [|e0 c] eqn:Ec; [unfold nlen in Hn; cbn in Hn; lia|].
    assert (G : forall lru, Forall2 (R (im_cache s)) (im_index s) (order lru h) -> exists p n rest e, im_index s = (p, n) :: rest /\ In e (e0 :: c) /\ en_ptr e = p).
    { intros lru F. assert (P : In (en_full e0) (order lru h)) by (apply (i_ord _ _ _ I), (i_pres _ _ _ I); exists e0; rewrite Ec; split; [left|]; reflexivity).
      destruct (order lru h) as [|f r]; [destruct P|]. inversion F as [|[p n] ? l ? HR]; subst. destruct HR as (e & A & B & C). exists p, n, l, e. rewrite <- Ec. auto. }
    assert (Hi := i_idx _ _ _ I).
    destruct (im_policy s); [exact (G _ Hi) | exact (G _ Hi) | | congruence].
    destruct Hi as (I1 & I2 & I3 & I4). rewrite Ec in *. specialize (I4 e0 (or_introl eq_refl)). destruct (im_index s) as [|[p n] l] eqn:Ei; [destruct I4|].
    destruct (I3 (p, n) (or_introl eq_refl)) as (_ & e & A & B & _). exists p, n, l, e; auto. }
  destruct H as (p & n & rest & e & Ei & He & Hp).
  assert (Ev : im_evictItem s = Ok (true, im_freeEntry e (im_beforeErase (en_ptr e) s), [OEvict (en_full e)])).
  { assert (F : List.find (fun e => Nat.eqb (en_ptr e) p) (im_cache s) = Some e).
    { destruct (List.find (fun e => Nat.eqb (en_ptr e) p) (im_cache s)) as [x|] eqn:Ef.
      - apply find_some in Ef. destruct Ef as [A B]. apply Nat.eqb_eq in B. f_equal. eapply ptr_inj; eauto. congruence.
      - pose proof (find_none _ _ Ef _ He) as X. cbn in X. apply Nat.eqb_neq in X. congruence. }
    unfold im_evictItem. rewrite Ei, F. unfold im_eraseImpl. rewrite (im_lookup_in s e (i_sorted _ _ _ I) He).
    unfold im_beforeErase, im_freeEntry, setIndex. rewrite Ei in Nx. rewrite Hp, Ei, (idx_remove_head p n rest Nx).
    destruct (im_policy s) eqn:EP; try congruence; unfold im_set; cbn; rewrite ?EP; reflexivity. }
  exists e, (im_freeEntry e (im_beforeErase (en_ptr e) s)). splits.
  - exact Ev.
  - exact He.
  - eapply Inv_victim; eauto.
  - apply Inv_remove; auto. right; reflexivity.
  - unfold im_freeEntry, im_beforeErase, setIndex. destruct (im_policy s); reflexivity.
  - unfold im_freeEntry, im_beforeErase, setIndex. destruct (im_policy s); reflexivity.
  - unfold im_freeEntry, im_beforeErase, setIndex. destruct (im_policy s); reflexivity.
  - unfold im_freeEntry, im_beforeErase, setIndex. destruct (im_policy s); reflexivity.
  - unfold im_freeEntry, im_beforeErase, setIndex. destruct (im_policy s) eqn:EP; unfold im_set; cbn; exact EP.
  - unfold im_freeEntry, im_beforeErase, setIndex. destruct (im_policy s); reflexivity.
Qed.

Definition same (s s' : ims) : Prop :=
  im_cache s' = im_cache s /\ im_limit s' = im_limit s /\ im_n s' = im_n s /\ im_policy s' = im_policy s /\ im_sched s' = im_sched s.

Lemma Inv_setCapacity : forall k h s c, Inv k h s -> im_n s <= N.max c 16 -> N.max c 16 <= im_limit s -> N.max c 16 <= 2 * k + 16 ->
  exists s', im_setCapacity c s = Ok (s', []) /\ Inv k h s' /\ same s s' /\ im_cap s' = N.max c 16.
Proof.
  intros k h s c [S Hn Hc Hm Hk Hl Hp Hd Hw Hr Hor Hi] H1 H2 H3.
  unfold im_setCapacity. change MIN_CAPACITY with 16. set (cap := N.max c 16) in *. assert (C16 : 16 <= cap) by (unfold cap; lia).
  set (s1 := im_set s cap (im_n s) (im_cache s) (im_free s) (im_new s) (im_index s)).
  assert (E : im_evictLoop (2 * N.to_nat (im_n s)) (Z.of_N (im_n s) - Z.of_N cap) s1 = Ok (s1, [])).
  { unfold s1. destruct (2 * N.to_nat (im_n s))%nat; cbn [im_evictLoop im_set im_n im_cap]; (destruct (im_n s <=? cap) eqn:X; [reflexivity | lia]). }
  rewrite E. cbn [bind fst snd]. clear E.
  destruct (im_cap s <=? cap) eqn:EC.
  - assert (Hn' : nlen (rev (seq (im_new s1) (N.to_nat (cap - im_cap s))) ++ im_free s1) = (cap - im_cap s) + nlen (im_free s)).
    { rewrite nlen_app. unfold nlen. rewrite rev_length, seq_length. cbn. lia. }
    unfold im_assertSize. cbn [fst]. unfold im_push at 1 2 3. cbn [im_set im_n im_free im_cap]. rewrite Hn'. cbn [s1 im_set im_n im_cap].
    destruct (im_n s + _ =? cap) eqn:X; [|lia]. eexists; split; [reflexivity|]. unfold im_push, same, s1. cbn [im_set im_n im_free im_cap im_cache im_limit im_policy im_sched im_new im_index].
    splits; auto. cbn [s1 im_set im_new im_free] in Hn'.
    assert (fr : forall x, In x (rev (seq (im_new s) (N.to_nat (cap - im_cap s)))) -> (im_new s <= x < im_new s + N.to_nat (cap - im_cap s))%nat).
    { intros x Hx. apply in_rev in Hx. apply in_seq in Hx. exact Hx. }
    constructor; cbn [im_set im_policy im_limit im_cap im_n im_cache im_free im_new im_index]; auto; try lia.
    + clear - Hd Hw fr. set (L := seq (im_new s) (N.to_nat (cap - im_cap s))) in *.
      apply (Permutation_NoDup (l := rev L ++ (map en_ptr (im_cache s) ++ im_free s))); [apply Permutation_app_swap_app|].
      assert (NoDup (rev L)) by (apply NoDup_rev, seq_NoDup).
      assert (D : forall x, In x (rev L) -> ~ In x (map en_ptr (im_cache s) ++ im_free s)) by (intros x Hx Hy; apply Hw in Hy; apply fr in Hx; lia).
      revert H D. generalize (rev L). intros l. induction l as [|x l IH]; intros N D; [exact Hd|]. inversion N; subst. cbn. constructor.
      * intro Hx. apply in_app_or in Hx. destruct Hx as [Hx|Hx]; [tauto|]. exact (D x (or_introl eq_refl) Hx).
      * apply IH; [exact H2 | intros; apply D; right; auto].
    + intros p Hpp. apply in_app_or in Hpp. destruct Hpp as [Hpp|Hpp].
      * assert (p < im_new s)%nat by (apply Hw; apply in_or_app; auto). lia.
      * apply in_app_or in Hpp. destruct Hpp as [Hpp|Hpp]; [apply fr in Hpp; lia|]. assert (p < im_new s)%nat by (apply Hw; apply in_or_app; auto). lia.
  - cbn [s1 im_set im_free im_n im_cap im_cache im_new im_index].
    destruct (Nat.ltb _ _) eqn:EL; [apply Nat.ltb_lt in EL; unfold nlen in *; lia|]. apply Nat.ltb_ge in EL.
    set (m := N.to_nat (im_cap s - cap)) in *.
    assert (Hn' : nlen (skipn m (im_free s)) = nlen (im_free s) - N.of_nat m) by (unfold nlen; rewrite skipn_length; lia).
    unfold im_assertSize. cbn [fst im_set im_n im_free im_cap]. rewrite Hn'.
    destruct (im_n s + _ =? cap) eqn:X; [|lia]. eexists; split; [reflexivity|]. unfold same. cbn [im_set im_n im_free im_cap im_cache im_limit im_policy im_sched].
    splits; auto. 
    assert (SK : forall x, In x (skipn m (im_free s)) -> In x (im_free s)).
    { intros x Hx. rewrite <- (firstn_skipn m (im_free s)). apply in_or_app; auto. }
    constructor; cbn [im_set im_policy im_limit im_cap im_n im_cache im_free im_new im_index]; auto; try lia.
    + rewrite <- (firstn_skipn m (im_free s)), app_assoc in Hd.
      apply (Permutation_NoDup (l' := firstn m (im_free s) ++ (map en_ptr (im_cache s) ++ skipn m (im_free s)))) in Hd; [| rewrite <- app_assoc; apply Permutation_app_swap_app].
      revert Hd. generalize (firstn m (im_free s)). induction l as [|x l IH]; cbn; intro N; [exact N|]. inversion N; auto.
    + intros p Hpp. apply Hw. apply in_app_or in Hpp. apply in_or_app. destruct Hpp; auto.
Qed.

Lemma Inv_stale : forall k h s p, Inv k h s -> Inv k h (im_stale p s).
Proof.
  intros k h s p [S Hn Hc Hm Hk Hl Hp Hd Hw Hr Hor Hi].
  set (g := fun e => if Nat.eqb (en_ptr e) p && en_timer e then mkEnt (en_ptr e) (en_pk e) false false else e).
  assert (gp : forall e, en_ptr (g e) = en_ptr e) by (intro e; unfold g; destruct (_ && _); reflexivity).
  assert (gf : forall e, en_full (g e) = en_full e) by (intro e; unfold g; destruct (_ && _); reflexivity).
  assert (mp : map en_ptr (map g (im_cache s)) = map en_ptr (im_cache s)) by (rewrite map_map; apply map_ext; exact gp).
  unfold im_stale. fold g. constructor; cbn [im_set im_policy im_limit im_cap im_n im_cache im_free im_new im_index]; auto; try lia.
  - clear - S gf. induction (im_cache s) as [|e c IH]; cbn; [constructor|]. apply sorted_cons in S. destruct S as [S F]. apply sorted_cons; split; [auto|].
    rewrite Forall_forall in *. intros x Hx. apply in_map_iff in Hx. destruct Hx as (y & <- & Hy). unfold elt. rewrite !gf. exact (F _ Hy).
  - unfold nlen in *. rewrite map_length. exact Hn.
  - rewrite mp; exact Hd.
  - rewrite mp; exact Hw.
  - intro f. rewrite Hr. split.
    + intros (e & A & B). exists (g e). split; [apply in_map; exact A | rewrite gf; exact B].
    + intros (e & A & B). apply in_map_iff in A. destruct A as (y & <- & Hy). exists y. rewrite gf in B. auto.
  - assert (RR : forall x f, R (im_cache s) x f -> R (map g (im_cache s)) x f).
    { intros x f (e & A & B & C). exists (g e). splits; [apply in_map; exact A | rewrite gp; exact B | rewrite gf; exact C]. }
    destruct (im_policy s); cbn [idx_ok] in *; auto; [eapply Forall2_mono; eauto | eapply Forall2_mono; eauto|].
    destruct Hi as (I1 & I2 & I3 & I4). unfold lfu_ok; splits; auto.
    + intros x Hx. destruct (I3 _ Hx) as (A & e & B & C & D). split; [exact A|]. exists (g e). splits; [apply in_map; exact B | rewrite gp; exact C | rewrite gf; exact D].
    + intros e He. apply in_map_iff in He. destruct He as (y & <- & Hy). rewrite gp. auto.
Qed.

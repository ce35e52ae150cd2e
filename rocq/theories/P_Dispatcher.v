(* Proofs about the dispatcher, part 1: the Interest filters. *)
From Coq Require Import ZArith Lia ZifyBool ZifyNat ZifyN.
From Verif Require Import Base BaseLemmas M_Tlv M_Name S_Name M_Ims S_Ims P_Ims M_StatusDataset M_Dispatcher S_Dispatcher.
Open Scope N_scope.

Lemma overlaps_iff : forall a b, overlaps a b = true <-> comparable a b.
Proof. intros a b. unfold overlaps, comparable. rewrite orb_true_iff, !prefixb_iff. reflexivity. Qed.
Lemma comparable_sym : forall a b, comparable a b -> comparable b a.
Proof. intros a b [H|H]; [right|left]; exact H. Qed.
Lemma comparable_refl : forall a, comparable a a.
Proof. intro a. left. exists []. symmetry. apply app_nil_r. Qed.
(* two prefixes of a name *)
Lemma prefixes_comparable : forall (n a b : names), is_prefix a n -> is_prefix b n -> comparable a b.
Proof.
  induction n as [|k n IH]; intros a b [x A] [y B].
  - symmetry in A, B. apply app_eq_nil in A as [-> _]. apply app_eq_nil in B as [-> _]. apply comparable_refl.
  - destruct a as [|ka a]; [left; exists b; reflexivity|]. destruct b as [|kb b]; [right; exists (ka :: a); reflexivity|].
    cbn in A, B. injection A as <- A. injection B as <- B. destruct (IH a b) as [[z ->]|[z ->]]; [exists x; exact A|exists y; exact B| |].
    + left. exists z. reflexivity.
    + right. exists z. reflexivity.
Qed.
Lemma comparable_common : forall a b, comparable a b -> exists n, is_prefix a n /\ is_prefix b n.
Proof.
  intros a b [[x E]|[x E]]; [exists b|exists a]; split; try (exists x; exact E); exists []; symmetry; apply app_nil_r.
Qed.
Lemma prefix_trans : forall (a b c : names), is_prefix a b -> is_prefix b c -> is_prefix a c.
Proof. intros a b c [x ->] [y ->]. exists (x ++ y). now rewrite app_assoc. Qed.
Lemma prefix_app : forall (a b : names), is_prefix a (a ++ b).
Proof. intros a b. exists b. reflexivity. Qed.
Lemma comparable_tops : forall t r t' r', comparable (t ++ r) (t' ++ r') -> comparable t t'.
Proof.
  intros t r t' r' H. destruct (comparable_common _ _ H) as (n & A & B). apply (prefixes_comparable n).
  - exact (prefix_trans _ _ _ (prefix_app t r) A).
  - exact (prefix_trans _ _ _ (prefix_app t' r') B).
Qed.
Lemma comparable_rels : forall t r r', comparable (t ++ r) (t ++ r') -> comparable r r'.
Proof.
  intros t r r' [[x E]|[x E]]; rewrite <- app_assoc in E; apply app_inv_head in E; [left|right]; exists x; exact E.
Qed.

(* pairwise not comparable *)
Definition apart {A} (f : A -> names) (l : list A) : Prop := ForallOrdPairs (fun a b => ~ comparable (f a) (f b)) l.
Lemma apart_eq : forall A (f : A -> names) l a b, apart f l -> In a l -> In b l -> comparable (f a) (f b) -> a = b.
Proof.
  intros A f l a b H. induction H as [|x l F H IH]; intros Ha Hb C; [destruct Ha|]. rewrite Forall_forall in F.
  destruct Ha as [->|Ha]; destruct Hb as [->|Hb]; auto; exfalso.
  - exact (F _ Hb C).
  - exact (F _ Ha (comparable_sym _ _ C)).
Qed.
Lemma apart_filter : forall A (f : A -> names) p l, apart f l -> apart f (filter p l).
Proof.
  intros A f p l H. induction H as [|x l F H IH]; cbn; [constructor|]. destruct (p x); auto. constructor; auto.
  rewrite Forall_forall in F |- *. intros y Hy. apply filter_In in Hy as [Hy _]. auto.
Qed.
Lemma apart_cons : forall A (f : A -> names) x l, apart f l -> (forall y, In y l -> ~ comparable (f y) (f x)) -> apart f (x :: l).
Proof. intros A f x l H F. constructor; auto. apply Forall_forall. intros y Hy C. exact (F y Hy (comparable_sym _ _ C)). Qed.
Lemma apart_app : forall A (f : A -> names) a b, apart f a -> apart f b -> (forall x y, In x a -> In y b -> ~ comparable (f x) (f y)) -> apart f (a ++ b).
Proof.
  intros A f a b Ha Hb C. induction Ha as [|x l F H IH]; cbn; auto. constructor.
  - rewrite Forall_forall in F |- *. intros y Hy. apply in_app_or in Hy as [Hy|Hy]; auto. apply C; [left; reflexivity|exact Hy].
  - apply IH. intros x' y Hx Hy. apply C; [right; exact Hx|exact Hy].
Qed.
Lemma apart_firstn : forall A (f : A -> names) l k, apart f l -> apart f (firstn k l).
Proof.
  intros A f l k H. revert k. induction H as [|x l F H IH]; intros [|k]; cbn; try constructor; auto; [|apply IH].
  rewrite Forall_forall in F |- *. intros y Hy. apply F. rewrite <- (firstn_skipn k l). apply in_or_app. left. exact Hy.
Qed.

(* the table of filters after each task *)
Definition full (f : frec) : names := fr_top f ++ fr_rel f.
Definition run1 (x : ptask) (T : list frec) : list frec :=
  match x with TSet f => T ++ [f] | TUnset i => filter (fun f => negb (Nat.eqb (fr_id f) i)) T end.
Definition settle (T : list frec) (l : list ptask) : list frec := fold_left (fun T x => run1 x T) l T.
Fixpoint tables (P : list frec -> Prop) (T : list frec) (l : list ptask) : Prop :=
  P T /\ match l with [] => True | x :: l' => tables P (run1 x T) l' end.
Lemma tables_app : forall P l1 T l2, tables P T l1 -> tables P (settle T l1) l2 -> tables P T (l1 ++ l2).
Proof.
  intros P. induction l1 as [|x l1 IH]; intros T l2 A B; cbn in *; auto. destruct A as [A1 A2]. split; [exact A1|]. apply IH; auto.
Qed.
Lemma tables_head : forall P T l, tables P T l -> P T.
Proof. intros P T [|x l] H; cbn in H; apply H. Qed.
Lemma tables_last : forall P l T, tables P T l -> P (settle T l).
Proof. intros P. induction l as [|x l IH]; intros T H; cbn in *; [apply H|]. destruct H as [_ H]. apply IH. exact H. Qed.
Lemma tables_mono : forall (P Q : list frec -> Prop) l T, (forall T, P T -> Q T) -> tables P T l -> tables Q T l.
Proof. intros P Q. induction l as [|x l IH]; intros T M [A B]; cbn; split; auto. Qed.
Lemma settle_app : forall T l1 l2, settle T (l1 ++ l2) = settle (settle T l1) l2.
Proof. intros. unfold settle. apply fold_left_app. Qed.
Lemma settle_set : forall fs T, settle T (map TSet fs) = T ++ fs.
Proof. induction fs as [|f fs IH]; intro T; cbn; [now rewrite app_nil_r|]. unfold settle in IH. rewrite IH. now rewrite <- app_assoc. Qed.
Lemma settle_unset : forall is T f, In f (settle T (map TUnset is)) <-> In f T /\ ~ In (fr_id f) is.
Proof.
  induction is as [|i is IH]; intros T f; cbn; [tauto|]. unfold settle in IH. rewrite IH, filter_In, negb_true_iff, Nat.eqb_neq. intuition congruence.
Qed.
Lemma tables_set : forall (P : list frec -> Prop) fs T, (forall k, P (T ++ firstn k fs)) -> tables P T (map TSet fs).
Proof.
  intros P. induction fs as [|f fs IH]; intros T H; cbn.
  - split; auto. specialize (H 0%nat). cbn in H. now rewrite app_nil_r in H.
  - split; [specialize (H 0%nat); cbn in H; now rewrite app_nil_r in H|]. apply IH. intro k. specialize (H (S k)). cbn in H. now rewrite <- app_assoc.
Qed.
Lemma tables_unset : forall (P : list frec -> Prop), (forall p T, P T -> P (filter p T)) -> forall is T, P T -> tables P T (map TUnset is).
Proof. intros P H. induction is as [|i is IH]; intros T HT; cbn; split; auto. Qed.

Lemma filters_in : forall t hs i f, In f (d_filters t hs i) <->
  exists j, nth_error hs j = Some (fr_rel f, fr_kind f) /\ fr_top f = t /\ fr_id f = (i + j)%nat.
Proof.
  induction hs as [|[r k] hs IH]; intros i f; cbn.
  - split; [intros []|intros ([|j] & H & _); discriminate].
  - split.
    + intros [<-|H]; [exists 0%nat; cbn; splits; auto|]. apply IH in H as (j & A & B & C). exists (S j). cbn. splits; auto. lia.
    + intros ([|j] & A & B & C); cbn in A.
      * left. injection A as A1 A2. destruct f as [id tt rr kk]; cbn in *. subst. f_equal. lia.
      * right. apply IH. exists j. splits; auto. lia.
Qed.
Lemma filters_apart : forall t hs i, apart fst hs -> apart full (d_filters t hs i).
Proof.
  intros t hs i H. revert i. induction H as [|[r k] l F H IH]; intro i; cbn; [constructor|]. constructor; [|apply IH].
  rewrite Forall_forall in F |- *. intros f Hf C. apply filters_in in Hf as (j & A & B & _). apply nth_error_In in A. apply (F _ A). cbn.
  unfold full in C. cbn in C. rewrite B in C. exact (comparable_rels _ _ _ C).
Qed.
Lemma filters_ids : forall t hs i f, In f (d_filters t hs i) -> (i <= fr_id f < i + List.length (d_filters t hs i))%nat.
Proof.
  intros t hs i f H. assert (L : List.length (d_filters t hs i) = List.length hs) by (clear H; revert i; induction hs as [|[r k] hs IH]; intro i; cbn; auto).
  apply filters_in in H as (j & A & _ & ->). rewrite L. assert (nth_error hs j <> None) by congruence. apply nth_error_Some in H. lia.
Qed.

(* the part of the invariant that concerns filters *)
Record FInv (s : dstate) : Prop := mkFI {
  fi_tops : apart fst (d_tops s);
  fi_handlers : apart fst (d_handlers s);
  fi_tables : tables (apart full) (d_table s) (d_posted s);
  fi_settled : forall f, In f (settle (d_table s) (d_posted s)) ->
    exists is, In (fr_top f, is) (d_tops s) /\ In (fr_id f) is /\ In (fr_rel f, fr_kind f) (d_handlers s);
  fi_complete : forall t is r k, In (t, is) (d_tops s) -> In (r, k) (d_handlers s) ->
    exists i, In (mkF i t r k) (settle (d_table s) (d_posted s)) /\ In i is;
  fi_ids : forall t is i, In (t, is) (d_tops s) -> In i is -> (i < d_nextid s)%nat;
  fi_disjoint : forall t is t' is' i, In (t, is) (d_tops s) -> In (t', is') (d_tops s) -> In i is -> In i is' -> t = t'
}.

Lemma FInv_init : forall L, FInv (d_init L).
Proof. intro L. constructor; cbn; try constructor; try (intros; tauto); auto. constructor. Qed.

(* states with the same filters *)
Definition same_filters (s s' : dstate) : Prop :=
  d_tops s' = d_tops s /\ d_handlers s' = d_handlers s /\ d_table s' = d_table s /\ d_posted s' = d_posted s /\ d_nextid s' = d_nextid s.
Lemma FInv_same : forall s s', FInv s -> same_filters s s' -> FInv s'.
Proof.
  intros s s' [] (A & B & C & D & E). constructor; rewrite ?A, ?B, ?C, ?D, ?E; auto.
Qed.

Lemma existsb_no : forall A (f : A -> bool) l, existsb f l = false <-> forall x, In x l -> f x = false.
Proof.
  intros A f l. split.
  - intros H x Hx. destruct (f x) eqn:E; auto. assert (existsb f l = true) by (apply existsb_exists; exists x; auto). congruence.
  - intro H. destruct (existsb f l) eqn:E; auto. apply existsb_exists in E as (x & A1 & A2). rewrite (H _ A1) in A2. discriminate.
Qed.

Lemma addTop_FInv : forall t s s' o x, FInv s -> d_addTop t s = (s', o, x) -> FInv s'.
Proof.
  intros t s s' o x I H. unfold d_addTop in H. destruct (existsb _ _) eqn:E; [injection H as <- _ _; exact I|]. injection H as <- _ _.
  assert (NO : forall y, In y (d_tops s) -> ~ comparable (fst y) t).
  { intros y Hy C. rewrite existsb_no in E. specialize (E _ Hy). apply overlaps_iff in C. congruence. }
  destruct I as [I1 I2 I3 I4 I5 I6 I7]. set (fs := d_filters t (d_handlers s) (d_nextid s)).
  assert (AP : apart full (settle (d_table s) (d_posted s) ++ fs)).
  { apply apart_app; [exact (tables_last _ _ _ I3)|apply filters_apart; exact I2|]. intros f g Hf Hg C. apply I4 in Hf as (is & F1 & _). apply filters_in in Hg as (j & _ & G & _).
    apply (NO _ F1). cbn. unfold full in C. rewrite G in C. exact (comparable_tops _ _ _ _ C). }
  constructor; cbn [d_tops d_handlers d_table d_posted d_nextid setPosted setNextid setTops].
  - apply apart_cons; auto.
  - exact I2.
  - apply tables_app; [exact I3|]. apply tables_set. intro k.
    replace (settle (d_table s) (d_posted s) ++ firstn k fs) with (firstn (List.length (settle (d_table s) (d_posted s)) + k) (settle (d_table s) (d_posted s) ++ fs)).
    + apply apart_firstn. exact AP.
    + rewrite firstn_app. rewrite firstn_all2 by lia. f_equal. f_equal. lia.
  - intros f Hf. rewrite settle_app, settle_set in Hf. apply in_app_or in Hf as [Hf|Hf].
    + destruct (I4 _ Hf) as (is & A & B). exists is. split; [right; exact A|exact B].
    + exists (map fr_id fs). assert (Q := Hf). apply filters_in in Q as (j & A & -> & _). splits; [left; reflexivity|apply in_map; exact Hf|]. exact (nth_error_In _ _ A).
  - intros t' is r k [Q|Q] Hr; rewrite settle_app, settle_set.
    + injection Q as <- <-. destruct (In_nth_error _ _ Hr) as [j Hj]. exists (d_nextid s + j)%nat.
      assert (X : In (mkF (d_nextid s + j) t r k) fs) by (apply filters_in; exists j; splits; auto). split; [apply in_or_app; right; exact X|]. apply (in_map fr_id _ _ X).
    + destruct (I5 _ _ _ _ Q Hr) as (i & A & B). exists i. split; [apply in_or_app; left; exact A|exact B].
  - intros t' is i [Q|Q] Hi.
    + injection Q as <- <-. apply in_map_iff in Hi as (f & <- & Hf). apply filters_ids in Hf. fold fs in Hf. lia.
    + specialize (I6 _ _ _ Q Hi). lia.
  - intros t1 is1 t2 is2 i [Q1|Q1] [Q2|Q2] H1 H2.
    + congruence.
    + injection Q1 as <- <-. apply in_map_iff in H1 as (f & <- & Hf). apply filters_ids in Hf. specialize (I6 _ _ _ Q2 H2). lia.
    + injection Q2 as <- <-. apply in_map_iff in H2 as (f & <- & Hf). apply filters_ids in Hf. specialize (I6 _ _ _ Q1 H1). lia.
    + exact (I7 _ _ _ _ _ Q1 Q2 H1 H2).
Qed.
Lemma removeTop_FInv : forall t s s' o x, FInv s -> d_removeTop t s = (s', o, x) -> FInv s'.
Proof.
  intros t s s' o x I H. unfold d_removeTop in H. injection H as <- _ _. destruct I as [I1 I2 I3 I4 I5 I6 I7].
  set (gone := filter (fun x => names_eqb (fst x) t) (d_tops s)).
  assert (G : forall i, In i (List.concat (map snd gone)) <-> exists is, In (t, is) (d_tops s) /\ In i is).
  { intro i. rewrite in_concat. split.
    - intros (is & A & B). apply in_map_iff in A as ([t' is'] & <- & A). apply filter_In in A as [A1 A2]. cbn in A2. apply names_eqb_eq in A2. subst. exists is'. auto.
    - intros (is & A & B). exists is. split; auto. apply in_map_iff. exists (t, is). split; auto. apply filter_In. split; auto. cbn. apply names_eqb_refl. }
  assert (K : forall y, In y (filter (fun x => negb (names_eqb (fst x) t)) (d_tops s)) <-> In y (d_tops s) /\ fst y <> t).
  { intro y. rewrite filter_In, negb_true_iff, names_eqb_neq. reflexivity. }
  constructor; cbn [d_tops d_handlers d_table d_posted d_nextid setPosted setNextid setTops].
  - apply apart_filter. exact I1.
  - exact I2.
  - apply tables_app; [exact I3|]. apply tables_unset; [intros; now apply apart_filter|exact (tables_last _ _ _ I3)].
  - intros f Hf. rewrite settle_app in Hf. apply settle_unset in Hf as [A B]. destruct (I4 _ A) as (is & C & D & E). exists is. splits; auto. apply K. split; auto. cbn.
    intro Q. apply B. apply G. exists is. split; auto. rewrite <- Q. exact C.
  - intros t' is r k Q Hr. apply K in Q as [Q N]. cbn in N. destruct (I5 _ _ _ _ Q Hr) as (i & A & B). exists i. split; auto. rewrite settle_app. apply settle_unset. split; auto. cbn.
    intro Z. apply G in Z as (is' & Z1 & Z2). apply N. exact (I7 _ _ _ _ _ Q Z1 B Z2).
  - intros t' is i Q. apply K in Q as [Q _]. exact (I6 _ _ _ Q).
  - intros t1 is1 t2 is2 i Q1 Q2. apply K in Q1 as [Q1 _]. apply K in Q2 as [Q2 _]. exact (I7 _ _ _ _ _ Q1 Q2).
Qed.
Lemma checkPrefix_none : forall r s, d_checkPrefix r s = None <-> d_tops s = [] /\ forall x, In x (d_handlers s) -> ~ comparable (fst x) r.
Proof.
  intros r s. unfold d_checkPrefix. destruct (d_tops s); [|split; [discriminate|intros [A _]; discriminate]]. destruct (existsb _ _) eqn:E.
  - split; [discriminate|]. intros [_ H]. apply existsb_exists in E as (x & A & B). apply overlaps_iff in B. exfalso. exact (H _ A B).
  - split; auto. intros _. split; auto. intros x Hx C. rewrite existsb_no in E. specialize (E _ Hx). apply overlaps_iff in C. congruence.
Qed.
Lemma addHandler_FInv : forall r k s s' o x, FInv s -> d_addHandler r k s = (s', o, x) -> FInv s'.
Proof.
  intros r k s s' o x I H. unfold d_addHandler in H. destruct (d_checkPrefix r s) eqn:E; [injection H as <- _ _; exact I|]. apply checkPrefix_none in E as [E1 E2].
  assert (I0 : FInv (setHandlers ((r, k) :: d_handlers s) s)).
  { destruct I as [I1 I2 I3 I4 I5 I6 I7]. constructor; cbn; auto.
    - apply apart_cons; auto.
    - intros f Hf. destruct (I4 _ Hf) as (is & A & _). rewrite E1 in A. destruct A.
    - intros t is r' k' Q. rewrite E1 in Q. destruct Q. }
  injection H as <- _ _. apply (FInv_same _ _ I0). destruct k; unfold same_filters; splits; reflexivity.
Qed.
Lemma task_FInv : forall s s' o x, FInv s -> d_task s = (s', o, x) -> FInv s'.
Proof.
  intros s s' o x I H. unfold d_task in H. destruct (d_posted s) as [|[f|i] l] eqn:E; injection H as <- _ _; auto;
    destruct I as [I1 I2 I3 I4 I5 I6 I7]; rewrite E in *; constructor; cbn; auto; destruct I3 as [_ I3]; exact I3.
Qed.

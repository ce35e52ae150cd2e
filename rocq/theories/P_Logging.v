(* Proofs about log levels. *)
From Coq Require Import Lia.
From Verif Require Import Base BaseLemmas M_Str P_Str M_Logging S_Logging.
Open Scope list_scope.
Open Scope nat_scope.

(* ---- strings ---- *)
Lemma snoc_case : forall (A : Type) (l : list A), l = [] \/ exists a x, l = a ++ [x].
Proof. intros A l. destruct (rev l) as [|x r] eqn:E; [left|right; exists (rev r), x]; rewrite <- (rev_involutive l), E; reflexivity. Qed.
Lemma last_snoc : forall (A : Type) (a : list A) x d, last (a ++ [x]) d = x.
Proof. intros. apply last_last. Qed.
Lemma starts_iff : forall p s, starts p s = true <-> exists r, s = p ++ r.
Proof.
  induction p as [|a p IH]; intro s; cbn [starts].
  - split; [intros _; exists s; reflexivity|auto].
  - destruct s as [|b s]; [split; [discriminate|intros (r & H); discriminate]|]. rewrite andb_true_iff, beqb_eq, IH. split.
    + intros (-> & r & ->). exists r. reflexivity.
    + intros (r & H). injection H as -> ->. eauto.
Qed.
Lemma starts_false : forall p s, starts p s = false <-> ~ exists r, s = p ++ r.
Proof. intros p s. rewrite <- starts_iff. destruct (starts p s); intuition congruence. Qed.
Lemma prefix_of_two : forall (A : Type) (a b x y : list A), a ++ x = b ++ y -> length a <= length b -> exists z, b = a ++ z.
Proof.
  induction a as [|c a IH]; intros b x y E L; [exists b; reflexivity|]. destruct b as [|d b]; [cbn in L; lia|].
  injection E as -> E. cbn in L. destruct (IH b x y E) as (z & ->); [lia|]. exists z. reflexivity.
Qed.
Lemma find_last_some : forall c s i, find_last c s = Some i -> exists a b, s = a ++ c :: b /\ length a = i /\ ~ In c b.
Proof.
  intros c s. induction s as [|x s IH]; intros i H; cbn [find_last] in H; [discriminate|].
  destruct (find_last c s) as [j|] eqn:E.
  - injection H as <-. destruct (IH j eq_refl) as (a & b & -> & L & N). exists (x :: a), b. cbn. auto.
  - destruct (beqb x c) eqn:B; [|discriminate]. injection H as <-. apply beqb_eq in B. subst x. exists [], s. splits; auto.
    clear IH. intro I. revert E. induction s as [|y s IH]; [contradiction|]. cbn [find_last].
    destruct (find_last c s) eqn:F; [discriminate|]. destruct I as [-> |I]; [now rewrite beqb_refl|]. destruct (beqb y c); [discriminate|]. intros _. auto.
Qed.
Lemma find_last_none : forall c s, find_last c s = None -> ~ In c s.
Proof.
  intros c s. induction s as [|x s IH]; intros H; [auto|]. cbn [find_last] in H. destruct (find_last c s) eqn:E; [discriminate|].
  destruct (beqb x c) eqn:B; [discriminate|]. intros [-> |I]; [now rewrite beqb_refl in B|]. now apply IH.
Qed.
Lemma firstn_snoc : forall (A : Type) (a : list A) c b, firstn (S (length a)) (a ++ c :: b) = a ++ [c].
Proof. induction a as [|x a IH]; intros; cbn; [reflexivity|]. f_equal. apply IH. Qed.

(* the place where a name is looked up next: the longest proper prefix that ends with a dot *)
Definition dotted (k : bytes) : Prop := k = [] \/ exists q, k = q ++ [cDot].
Lemma dotted_before : forall m k r, m = k ++ r -> dotted k ->
  match find_last cDot m with Some i => exists z, firstn (S i) m = k ++ z | None => k = [] end.
Proof.
  intros m k r E D. destruct (find_last cDot m) as [i|] eqn:F.
  - apply find_last_some in F as (a & b & Em & <- & N). rewrite Em, firstn_snoc. destruct D as [-> |(q & ->)]; [exists (a ++ [cDot]); reflexivity|].
    assert (L : length (q ++ [cDot]) <= length (a ++ [cDot])).
    { destruct (le_lt_dec (length (q ++ [cDot])) (length (a ++ [cDot]))) as [H|H]; auto. exfalso. apply N.
      rewrite Em in E. assert (E' : (a ++ [cDot]) ++ b = (q ++ [cDot]) ++ r) by (rewrite <- app_assoc; exact E).
      destruct (prefix_of_two _ _ _ _ _ E' ltac:(lia)) as (z & Z). rewrite Z in E'. rewrite <- (app_assoc (a ++ [cDot]) z r) in E'. apply app_inv_head in E'.
      rewrite E'. apply in_or_app. left. destruct (snoc_case _ z) as [-> |(z' & y & ->)]; [rewrite app_nil_r in Z; rewrite Z in H; lia|].
      rewrite app_assoc in Z. apply app_inj_tail in Z as (_ & <-). apply in_or_app. right. now left. }
    assert (E' : (q ++ [cDot]) ++ r = (a ++ [cDot]) ++ b) by (rewrite <- (app_assoc a); cbn [app]; now rewrite <- E, <- Em).
    exact (prefix_of_two _ _ _ _ _ E' L).
  - apply find_last_none in F. destruct D as [-> |(q & ->)]; auto. exfalso. apply F. rewrite E. apply in_or_app. left. apply in_or_app. right. now left.
Qed.
Lemma next_spec : forall mn, mn <> [] -> dotted (fl_next mn) /\ length (fl_next mn) < length mn /\ (exists r, mn = fl_next mn ++ r) /\
  forall k r, mn = k ++ r -> r <> [] -> dotted k -> exists z, fl_next mn = k ++ z.
Proof.
  intros mn NE. unfold fl_next. assert (L0 : 0 < length mn) by (destruct mn; [easy|cbn; lia]).
  destruct (find_last cDot mn) as [pos|] eqn:F.
  - pose proof F as F0. apply find_last_some in F as (a & b & E & La & N). destruct (Nat.ltb pos (length mn - 1)) eqn:C.
    + apply Nat.ltb_lt in C. rewrite E, <- La, firstn_snoc, app_length. cbn [length]. splits.
      * right. eauto.
      * rewrite E, app_length in C. rewrite app_length in *. cbn [length] in *. lia.
      * exists b. now rewrite <- app_assoc.
      * intros k r Ek Nr D. rewrite <- E in Ek. pose proof (dotted_before mn k r Ek D) as Q. rewrite F0, E, <- La, firstn_snoc in Q. exact Q.
    + apply Nat.ltb_ge in C. rewrite E, app_length in C. cbn [length] in C. assert (b = []) by (destruct b; [reflexivity|cbn in C; lia]). subst b.
      assert (Em : firstn (length mn - 1) mn = a).
      { rewrite E, app_length. cbn [length]. replace (length a + 1 - 1) with (length a) by lia. rewrite firstn_app, Nat.sub_diag, firstn_all. cbn. apply app_nil_r. }
      rewrite Em. assert (Hk : forall k r, mn = k ++ r -> r <> [] -> exists r', a = k ++ r').
      { intros k r Ek Nr. destruct (snoc_case _ r) as [-> |(r' & y & ->)]; [contradiction|]. rewrite E, app_assoc in Ek. apply app_inj_tail in Ek as (-> & _). eauto. }
      assert (Lm : length mn = length a + 1) by (rewrite E, app_length; reflexivity).
      destruct (find_last cDot a) as [p|] eqn:G.
      * pose proof G as G0. apply find_last_some in G as (a1 & b1 & Ea & La1 & N1). splits.
        -- right. exists a1. now rewrite Ea, <- La1, firstn_snoc.
        -- rewrite Lm. pose proof (firstn_le_length (S p) a). rewrite firstn_length. lia.
        -- exists (skipn (S p) a ++ [cDot]). rewrite app_assoc, firstn_skipn. exact E.
        -- intros k r Ek Nr D. destruct (Hk k r Ek Nr) as (r' & Er). pose proof (dotted_before a k r' Er D) as Q. rewrite G0 in Q. exact Q.
      * splits; [now left|cbn; lia|exists mn; reflexivity|]. intros k r Ek Nr D. destruct (Hk k r Ek Nr) as (r' & Er).
        pose proof (dotted_before a k r' Er D) as Q. rewrite G in Q. subst k. exists []. reflexivity.
  - splits; [now left|cbn; lia|exists mn; reflexivity|]. intros k r Ek Nr D. pose proof (dotted_before mn k r Ek D) as Q. rewrite F in Q. subst k. exists []. reflexivity.
Qed.
(* ---- findLevel: the longest of the name and its dotted prefixes that has a setting ---- *)
Definition cand (k mn : bytes) : Prop := k = mn \/ (dotted k /\ exists r, mn = k ++ r).
Lemma cand_next : forall k mn, mn <> [] -> k <> mn -> cand k mn -> cand k (fl_next mn).
Proof.
  intros k mn NE Nk [->|(D & r & E)]; [contradiction|]. destruct (next_spec mn NE) as (_ & _ & _ & H).
  assert (Nr : r <> []) by (intros ->; rewrite app_nil_r in E; congruence). destruct (H k r E Nr D) as (z & Z). right. eauto.
Qed.
Lemma next_cand : forall k mn, mn <> [] -> cand k (fl_next mn) -> cand k mn.
Proof.
  intros k mn NE C. destruct (next_spec mn NE) as (D & _ & (r & E) & _). right. destruct C as [->|(Dk & r' & E')]; [eauto|].
  split; auto. exists (r' ++ r). rewrite app_assoc, <- E'. exact E.
Qed.
Lemma cand_prefix : forall k mn, cand k mn -> exists r, mn = k ++ r.
Proof. intros k mn [->|(_ & H)]; auto. exists []. now rewrite app_nil_r. Qed.
Lemma find_spec : forall fuel m mn, length mn < fuel ->
  (exists k, cand k mn /\ lv_get k m = Some (findLevel_ fuel m mn) /\ forall k', cand k' mn -> length k < length k' -> lv_get k' m = None) \/
  (findLevel_ fuel m mn = NONE /\ forall k', cand k' mn -> lv_get k' m = None).
Proof.
  induction fuel as [|fuel IH]; [lia|]. intros m mn L. cbn [findLevel_]. destruct (lv_get mn m) as [l|] eqn:G.
  - left. exists mn. splits; auto; [now left|]. intros k' C H. destruct (cand_prefix _ _ C) as (r & E). rewrite E, app_length in H. lia.
  - destruct mn as [|x s] eqn:Em.
    + right. split; auto. intros k' C. destruct (cand_prefix _ _ C) as (r & E). destruct k'; [exact G|discriminate].
    + rewrite <- Em in *. assert (NE : mn <> []) by (rewrite Em; discriminate). clear x s Em.
      destruct (next_spec mn NE) as (_ & Ln & _ & _). destruct (IH m (fl_next mn)) as [(k & C & H & M)|(H & M)]; [lia| |].
      * left. exists k. splits; auto; [now apply next_cand|]. intros k' C' Lk. destruct (list_eq_dec Byte.byte_eq_dec k' mn) as [->|N]; auto. apply M; auto. now apply cand_next.
      * right. split; auto. intros k' C'. destruct (list_eq_dec Byte.byte_eq_dec k' mn) as [->|N]; auto. apply M. now apply cand_next.
Qed.

(* ---- patterns ---- *)
Definition wild (p : bytes) : bool := match p with [] => true | _ => beqb (last p x00) cStar end.
Definition pkey (p : bytes) : bytes := if wild p then firstn (length p - 1) p else p.
Lemma wild_iff : forall p, wild p = true <-> p = [] \/ exists q, p = q ++ [cStar].
Proof.
  intro p. unfold wild. destruct (snoc_case _ p) as [->|(a & x & ->)]; [split; auto|].
  assert (H : match a ++ [x] with [] => true | _ => beqb (last (a ++ [x]) x00) cStar end = beqb x cStar) by (rewrite last_snoc; destruct (a ++ [x]) eqn:E; [destruct a; discriminate|reflexivity]).
  rewrite H, beqb_eq. split.
  - intros ->. right. eauto.
  - intros [E|(q & E)]; [destruct a; discriminate|]. now apply app_inj_tail in E as (_ & ->).
Qed.
Lemma pkey_star : forall q, pkey (q ++ [cStar]) = q.
Proof.
  intro q. unfold pkey. assert (wild (q ++ [cStar]) = true) as -> by (apply wild_iff; eauto). rewrite app_length. cbn [length].
  replace (length q + 1 - 1) with (length q) by lia. rewrite firstn_app, Nat.sub_diag, firstn_all. cbn. apply app_nil_r.
Qed.
Lemma covers_wild : forall p n, wild p = true -> (covers p n <-> starts (pkey p) n = true).
Proof.
  intros p n W. pose proof W as W0. apply wild_iff in W as [->|(q & ->)].
  - cbn. split; auto. intros _. now left.
  - rewrite pkey_star, starts_iff. split.
    + intros [E|[(q' & r & E & ->)|(_ & H)]]; [destruct q; discriminate| |now destruct (H q)]. apply app_inj_tail in E as (-> & _). eauto.
    + intros (r & ->). right. left. eauto.
Qed.
Lemma covers_exact : forall p n, wild p = false -> (covers p n <-> p = n).
Proof.
  intros p n W. assert (N : p <> [] /\ forall q, p <> q ++ [cStar]).
  { split; [intros ->; discriminate|]. intros q ->. assert (wild (q ++ [cStar]) = true) by (apply wild_iff; eauto). congruence. }
  destruct N as (N1 & N2). split.
  - intros [E|[(q & r & E & _)|(E & _)]]; [contradiction|now destruct (N2 q)|exact E].
  - intros ->. right. right. auto.
Qed.
Lemma covers_dec : forall p n, covers p n \/ ~ covers p n.
Proof.
  intros p n. destruct (wild p) eqn:W.
  - rewrite covers_wild by auto. destruct (starts (pkey p) n); [now left|right; discriminate].
  - rewrite covers_exact by auto. destruct (list_eq_dec Byte.byte_eq_dec p n); auto.
Qed.
Lemma documented_wild : forall p, documented p -> wild p = true -> dotted (pkey p).
Proof.
  intros p D W. destruct D as [->|[->|[(q & ->)|H]]].
  - now left.
  - left. apply (pkey_star []).
  - right. exists q. replace (q ++ [cDot; cStar]) with ((q ++ [cDot]) ++ [cStar]) by (rewrite <- app_assoc; reflexivity). apply pkey_star.
  - apply wild_iff in W as [->|(q & ->)]; [now left|]. now destruct (H q).
Qed.
Lemma documented_exact : forall p, documented p -> wild p = false -> p <> [] /\ forall q, p <> q ++ [cDot].
Proof.
  intros p D W. split; [intros ->; discriminate|]. intros q ->. destruct D as [D|[D|[(q' & D)|H]]].
  - destruct q; discriminate.
  - rewrite D in W. discriminate.
  - replace (q' ++ [cDot; cStar]) with ((q' ++ [cDot]) ++ [cStar]) in D by (rewrite <- app_assoc; reflexivity). now apply app_inj_tail in D as (_ & D).
  - now destruct (H q).
Qed.

(* ---- the table of settings ---- *)
Lemma lv_get_filter : forall (f : bytes -> bool) k m, lv_get k (filter (fun e => f (fst e)) m) = if f k then lv_get k m else None.
Proof.
  intros f k m. induction m as [|(k', l) m IH]; cbn [filter lv_get fst]; [now destruct (f k)|].
  destruct (f k') eqn:F; cbn [lv_get].
  - destruct (bytes_eqb k k') eqn:E; [|exact IH]. apply bytes_eqb_eq in E. subst k'. now rewrite F.
  - rewrite IH. destruct (bytes_eqb k k') eqn:E; [|reflexivity]. apply bytes_eqb_eq in E. subst k'. now rewrite F.
Qed.
Lemma lv_get_set : forall k k' l m, lv_get k (lv_set k' l m) = if bytes_eqb k k' then Some l else lv_get k m.
Proof.
  intros k k' l m. unfold lv_set. cbn [lv_get]. destruct (bytes_eqb k k') eqn:E; auto.
  rewrite (lv_get_filter (fun x => negb (bytes_eqb k' x))). destruct (bytes_eqb k' k) eqn:E'; auto. apply bytes_eqb_eq in E'. subst. now rewrite bytes_eqb_refl in E.
Qed.
Lemma set_get : forall p l g k, lv_get k (lg_enabled (lg_set p l g)) =
  if bytes_eqb k (pkey p) then Some l else if wild p && starts (pkey p) k then None else lv_get k (lg_enabled g).
Proof.
  intros p l g k. unfold lg_set, pkey. fold (wild p). destruct (wild p) eqn:W; cbn [lg_enabled andb]; rewrite lv_get_set; auto.
  destruct (bytes_eqb k _); auto. rewrite (lv_get_filter (fun x => negb (starts (firstn (length p - 1) p) x))). now destruct (starts _ k).
Qed.
Definition tinv (ss : list (bytes * level)) (m : list (bytes * level)) : Prop :=
  forall k l, lv_get k m = Some l <-> exists s1 p s2, ss = s1 ++ (p, l) :: s2 /\ pkey p = k /\ Forall (fun s => pkey (fst s) <> k /\ (wild (fst s) = true -> starts (pkey (fst s)) k = false)) s2.
Lemma tinv_nil : tinv [] [].
Proof. intros k l. split; [discriminate|]. intros (s1 & p & s2 & E & _). destruct s1; discriminate. Qed.
Lemma tinv_set : forall ss g p l, tinv ss (lg_enabled g) -> tinv (ss ++ [(p, l)]) (lg_enabled (lg_set p l g)).
Proof.
  intros ss g p l T k l'. rewrite set_get. split.
  - intro H. destruct (bytes_eqb k (pkey p)) eqn:E.
    + injection H as <-. apply bytes_eqb_eq in E. subst k. exists ss, p, []. splits; auto.
    + apply bytes_eqb_neq in E. destruct (wild p && starts (pkey p) k) eqn:W; [discriminate|]. apply T in H as (s1 & p1 & s2 & -> & K & F).
      exists s1, p1, (s2 ++ [(p, l)]). splits; auto; [now rewrite <- app_assoc|]. apply Forall_app. split; auto. constructor; auto. cbn [fst]. split; [congruence|].
      intros Wp. now rewrite Wp in W.
  - intros (s1 & p1 & s2 & E & K & F). destruct (snoc_case _ s2) as [->|(s2' & x & ->)].
    + apply app_inj_tail in E as (_ & E). injection E as -> ->. subst k. now rewrite bytes_eqb_refl.
    + replace (s1 ++ (p1, l') :: s2' ++ [x]) with ((s1 ++ (p1, l') :: s2') ++ [x]) in E by (rewrite <- app_assoc; reflexivity).
      apply app_inj_tail in E as (-> & <-). apply Forall_app in F as (F & Fx). inversion Fx as [|? ? (N & W) _]; subst. cbn [fst] in *.
      destruct (bytes_eqb (pkey p1) (pkey p)) eqn:B; [apply bytes_eqb_eq in B; congruence|]. destruct (wild p) eqn:Wp; cbn [andb]; [rewrite (W eq_refl)|]; apply T; exists s1, p1, s2'; auto.
Qed.

(* ---- what decides ---- *)
Lemma decides_total : forall ss n, exists l, decides ss n l.
Proof.
  intros ss n. induction ss as [|(p, l) ss IH] using rev_ind; [exists NONE; right; auto|].
  destruct (covers_dec p n) as [C|C].
  - exists l. left. exists ss, p, []. auto.
  - destruct IH as (l' & [(s1 & p1 & s2 & -> & C1 & F)|(-> & F)]).
    + exists l'. left. exists s1, p1, (s2 ++ [(p, l)]). splits; auto; [now rewrite <- app_assoc|]. apply Forall_app. auto.
    + exists NONE. right. split; auto. apply Forall_app. auto.
Qed.
Lemma decides_snoc : forall ss p l n l0, decides ss n l0 -> (covers p n -> decides (ss ++ [(p, l)]) n l) /\ (~ covers p n -> decides (ss ++ [(p, l)]) n l0).
Proof.
  intros ss p l n l0 D. split; intro C.
  - left. exists ss, p, []. auto.
  - destruct D as [(s1 & p1 & s2 & -> & C1 & F)|(-> & F)].
    + left. exists s1, p1, (s2 ++ [(p, l)]). splits; auto; [now rewrite <- app_assoc|]. apply Forall_app. auto.
    + right. split; auto. apply Forall_app. auto.
Qed.
Lemma split_two : forall (A : Type) (a b a' b' : list A) x y, a ++ x :: b = a' ++ y :: b' ->
  (exists z, a' = a ++ x :: z /\ b = z ++ y :: b') \/ (a = a' /\ x = y /\ b = b') \/ (exists z, a = a' ++ y :: z /\ b' = z ++ x :: b).
Proof.
  induction a as [|c a IH]; intros b a' b' x y E; destruct a' as [|c' a']; cbn in E; injection E as E1 E2.
  - right. left. auto.
  - left. exists a'. subst. auto.
  - right. right. exists a. subst. auto.
  - subst c'. destruct (IH _ _ _ _ _ E2) as [(z & -> & ->)|[(-> & -> & ->)|(z & -> & ->)]].
    + left. exists z. auto.
    + right. left. auto.
    + right. right. exists z. auto.
Qed.
Lemma key_cand : forall p n, documented p -> covers p n -> cand (pkey p) n.
Proof.
  intros p n D C. destruct (wild p) eqn:W.
  - apply covers_wild in C; auto. apply starts_iff in C. right. split; auto. now apply documented_wild.
  - apply covers_exact in C; auto. subst. left. unfold pkey. now rewrite W.
Qed.
(* a setting that is where a name is looked up is for that name *)
Lemma cand_covers : forall p n, documented p -> cand (pkey p) n -> covers p n.
Proof.
  intros p n D C. destruct (wild p) eqn:W.
  - apply covers_wild; auto. apply starts_iff. now apply cand_prefix.
  - apply covers_exact; auto. destruct (documented_exact p D W) as (N1 & N2). unfold pkey in C. rewrite W in C. destruct C as [C|([C|(q & C)] & _)]; auto; [contradiction|now destruct (N2 q)].
Qed.
Lemma find_decides : forall ss m n, tinv ss m -> Forall (fun s => documented (fst s)) ss -> decides ss n (findLevel m n).
Proof.
  intros ss m n T Doc. destruct (decides_total ss n) as (l & D). enough (findLevel m n = l) as -> by exact D.
  unfold findLevel. pose proof (find_spec (S (length n)) m n ltac:(lia)) as FS. destruct D as [(s1 & p & s2 & E & C & F)|(-> & F)].
  - assert (Dp : documented p) by (rewrite E in Doc; apply Forall_app in Doc as (_ & Doc); now inversion Doc).
    assert (D2 : Forall (fun s => documented (fst s)) s2) by (rewrite E in Doc; apply Forall_app in Doc as (_ & Doc); now inversion Doc).
    pose proof (key_cand p n Dp C) as Ck.
    assert (G : lv_get (pkey p) m = Some l).
    { apply T. exists s1, p, s2. splits; auto. apply Forall_forall. intros (p', l') I. rewrite Forall_forall in F, D2. specialize (F _ I). specialize (D2 _ I). cbn [fst] in *. split.
      - intro K. apply F. apply cand_covers; auto. now rewrite K.
      - intro W. destruct (starts (pkey p') (pkey p)) eqn:S; auto. exfalso. apply F. apply covers_wild; auto. apply starts_iff. apply starts_iff in S as (r & S).
        destruct (cand_prefix _ _ Ck) as (r' & R). exists (r ++ r'). rewrite R, S. symmetry. apply app_assoc. }
    destruct FS as [(k & Kc & Kg & Km)|(_ & Km)]; [|rewrite (Km _ Ck) in G; discriminate].
    destruct (list_eq_dec Byte.byte_eq_dec k (pkey p)) as [->|N]; [congruence|].
    assert (Lk : length (pkey p) < length k).
    { destruct (le_lt_dec (length k) (length (pkey p))) as [H|H]; auto. exfalso. destruct (Nat.eq_dec (length k) (length (pkey p))) as [Q|Q].
      - destruct (cand_prefix _ _ Kc) as (r1 & R1). destruct (cand_prefix _ _ Ck) as (r2 & R2). rewrite R1 in R2.
        destruct (prefix_of_two _ _ _ _ _ R2 H) as (z & Z). rewrite Z, app_length in Q. destruct z; [rewrite app_nil_r in Z; congruence|cbn in Q; lia].
      - rewrite (Km (pkey p) Ck ltac:(lia)) in G. discriminate. }
    exfalso. apply T in Kg as (t1 & p' & t2 & E' & K' & F'). rewrite E in E'. apply split_two in E' as [(z & _ & ->)|[(_ & X & _)|(z & -> & ->)]].
    + apply Forall_app in F as (_ & F). inversion F as [|? ? F0 _]; subst. apply F0. cbn [fst]. apply Forall_app in D2 as (_ & D2). inversion D2; subst. apply cand_covers; auto.
    + injection X as -> ->. congruence.
    + apply Forall_app in F' as (_ & F'). inversion F' as [|? ? (_ & W) _]; subst. cbn [fst] in W.
      destruct (wild p) eqn:Wp.
      * specialize (W eq_refl). apply starts_false in W. apply W. destruct (cand_prefix _ _ Kc) as (r1 & R1). destruct (cand_prefix _ _ Ck) as (r2 & R2). rewrite R1 in R2.
        symmetry in R2. exact (prefix_of_two _ _ _ _ _ R2 ltac:(lia)).
      * apply covers_exact in C; auto. subst p. destruct (cand_prefix _ _ Kc) as (r1 & R1). unfold pkey in Lk at 1. rewrite Wp in Lk. apply (f_equal (@length _)) in R1. rewrite app_length in R1. lia.
  - destruct FS as [(k & Kc & Kg & Km)|(-> & Km)]; auto. exfalso. apply T in Kg as (s1 & p & s2 & E & K & _). subst.
    apply Forall_app in F as (_ & F). inversion F as [|? ? F0 _]; subst. apply F0. cbn [fst]. apply Forall_app in Doc as (_ & Doc). inversion Doc; subst. now apply cand_covers.
Qed.

(* ---- config strings ---- *)
Lemma level_of_text : forall s l, parseLogLevel s = Ok l <-> s = level_text l.
Proof.
  intros s l. split.
  - intro H. unfold parseLogLevel in H.
    repeat match type of H with (if bytes_eqb ?a ?b then _ else _) = _ => destruct (bytes_eqb a b) eqn:?Q; [injection H as <-; apply bytes_eqb_eq in Q; exact Q|clear Q] end. discriminate.
  - intros ->. destruct l; reflexivity.
Qed.
Lemma level_err : forall s e, parseLogLevel s = Err e -> e = EInvalidArg.
Proof.
  intros s e H. unfold parseLogLevel in H.
  repeat match type of H with (if ?b then _ else _) = _ => destruct b; [discriminate|] end. congruence.
Qed.
Lemma notin_forallb : forall c s, forallb (fun x => negb (beqb x c)) s = true <-> ~ In c s.
Proof.
  intros c s. rewrite forallb_forall. split.
  - intros H I. specialize (H c I). now rewrite beqb_refl in H.
  - intros H x I. destruct (beqb x c) eqn:E; auto. apply beqb_eq in E. subst. contradiction.
Qed.
Lemma split_none : forall c s, split_at c s = None -> ~ In c s.
Proof.
  intros c s H I. apply in_split in I as (a & b & ->). revert H. induction a as [|x a IH]; cbn [app split_at].
  - now rewrite beqb_refl.
  - destruct (beqb x c); [discriminate|]. destruct (split_at c (a ++ c :: b)) as [[? ?]|]; [discriminate|auto].
Qed.
Lemma item_split : forall t p l, item t p l <-> exists v, split_at cEquals t = Some (p, v) /\ parseLogLevel v = Ok l.
Proof.
  intros t p l. unfold item. split.
  - intros (-> & N). exists (level_text l). split; [apply split_at_app; now apply notin_forallb|now apply level_of_text].
  - intros (v & H & E). apply split_at_inv in H as (-> & N). apply level_of_text in E. subst v. split; auto. now apply notin_forallb.
Qed.
Definition apply_all (ss : list (bytes * level)) (g : logging) : logging := fold_left (fun g s => lg_set (fst s) (snd s) g) ss g.
Lemma config_spec : forall fuel s g g' e, length s < fuel -> lg_config_ fuel s g = (g', e) -> exists ss, config s ss e /\ g' = apply_all ss g.
Proof.
  induction fuel as [|fuel IH]; [lia|]. intros s g g' e L H. cbn [lg_config_] in H. destruct s as [|x s0] eqn:Es.
  - injection H as <- <-. exists []. split; [constructor|reflexivity].
  - rewrite <- Es in *. assert (NE : s <> []) by (rewrite Es; discriminate). clear x s0 Es. destruct (split_at cColon s) as [[t rest]|] eqn:S.
    + apply split_at_inv in S as (-> & N). apply notin_forallb in N. rewrite app_length in L. cbn [length] in L.
      destruct (split_at cEquals t) as [[m v]|] eqn:Q.
      * destruct (parseLogLevel v) as [l|x] eqn:P.
        -- destruct (IH rest (lg_set m l g) g' e ltac:(lia) H) as (ss & C & ->). exists ((m, l) :: ss). split; [|reflexivity].
           apply cf_item; auto. apply item_split. eauto.
        -- injection H as <- <-. exists []. rewrite (level_err _ _ P). split; [|reflexivity]. apply cf_bad; auto. intros p l I. apply item_split in I as (v' & Q' & P'). congruence.
      * injection H as <- <-. exists []. split; [|reflexivity]. apply cf_bad; auto. intros p l I. apply item_split in I as (v' & Q' & P'). congruence.
    + apply split_none in S. destruct (split_at cEquals s) as [[m v]|] eqn:Q.
      * destruct (parseLogLevel v) as [l|x] eqn:P.
        -- assert (L1 : 0 < fuel) by (destruct s; [easy|cbn [length] in L; lia]). destruct fuel as [|n]; [lia|]. cbn [lg_config_] in H. injection H as <- <-.
           exists [(m, l)]. split; [|reflexivity]. apply cf_last; auto. apply item_split. eauto.
        -- injection H as <- <-. exists []. rewrite (level_err _ _ P). split; [|reflexivity]. apply cf_bad_last; auto. intros p l I. apply item_split in I as (v' & Q' & P'). congruence.
      * injection H as <- <-. exists []. split; [|reflexivity]. apply cf_bad_last; auto. intros p l I. apply item_split in I as (v' & Q' & P'). congruence.
Qed.

(* ---- names ---- *)
Lemma dotdot_iff : forall s, has_dotdot s = true <-> exists a b, s = a ++ cDot :: cDot :: b.
Proof.
  induction s as [|x s IH]; [split; [discriminate|intros (a & b & E); destruct a; discriminate]|].
  destruct s as [|y s]; [split; [discriminate|intros (a & b & E); destruct a as [|? [|? ?]]; discriminate]|].
  change (has_dotdot (x :: y :: s)) with ((beqb x cDot && beqb y cDot) || has_dotdot (y :: s)). rewrite orb_true_iff, andb_true_iff, !beqb_eq, IH. split.
  - intros [(-> & ->)|(a & b & ->)]; [exists [], s|exists (x :: a), b]; reflexivity.
  - intros ([|z a] & b & E).
    + injection E as -> -> _. now left.
    + injection E as -> E. right. eauto.
Qed.
Lemma valid_iff : forall n, isValidLoggerName n = true <-> logger_name n.
Proof.
  intro n. unfold isValidLoggerName, logger_name. destruct n as [|a s] eqn:En; [split; [discriminate|intros (H & _); easy]|]. rewrite <- En in *.
  assert (NE : n <> []) by (rewrite En; discriminate).
  assert (A : negb (beqb a cDot) = true <-> forall s', n <> cDot :: s').
  { rewrite negb_true_iff. split.
    - intros H s' E. rewrite En in E. injection E as -> _. now rewrite beqb_refl in H.
    - intro H. destruct (beqb a cDot) eqn:B; auto. apply beqb_eq in B. subst a. now destruct (H s). }
  clear En. assert (B : negb (beqb (last n x00) cDot) = true <-> forall s', n <> s' ++ [cDot]).
  { rewrite negb_true_iff. destruct (snoc_case _ n) as [->|(q & x & ->)]; [contradiction|]. rewrite last_snoc. split.
    - intros H s' E. apply app_inj_tail in E as (_ & ->). now rewrite beqb_refl in H.
    - intro H. destruct (beqb x cDot) eqn:Q; auto. apply beqb_eq in Q. subst x. now destruct (H q). }
  assert (C : negb (has_dotdot n) = true <-> forall u v, n <> u ++ cDot :: cDot :: v).
  { rewrite negb_true_iff. split.
    - intros H u v E. assert (has_dotdot n = true) by (apply dotdot_iff; eauto). congruence.
    - intro H. destruct (has_dotdot n) eqn:Q; auto. apply dotdot_iff in Q as (u & v & E). now destruct (H u v). }
  assert (D : forallb (fun c => existsb (beqb c) okChars) n = true <-> forall c, In c n -> In c okChars).
  { rewrite forallb_forall. split; intros H c I; specialize (H c I).
    - apply existsb_exists in H as (x & Ix & E). apply beqb_eq in E. now subst.
    - apply existsb_exists. exists c. split; auto. apply beqb_refl. }
  rewrite !andb_true_iff, A, B, C, D. unfold okChars. tauto.
Qed.

(* ---- histories ---- *)
Definition linv (ss : list (bytes * level)) (g : logging) : Prop :=
  tinv ss (lg_enabled g) /\ (Forall (fun s => documented (fst s)) ss -> forall n lv, In (n, Some lv) (lg_loggers g) -> decides ss n lv).
Lemma linv_set : forall ss g p l, linv ss g -> linv (ss ++ [(p, l)]) (lg_set p l g).
Proof.
  intros ss g p l (T & D). split; [now apply tinv_set|]. intros Doc n lv I. apply Forall_app in Doc as (Doc & _). specialize (D Doc).
  unfold lg_set in I. fold (wild p) in I. destruct (wild p) eqn:W; cbn [lg_loggers] in I; apply in_map_iff in I as ((n0, [o|]) & E & I0); try discriminate; injection E as -> <-; specialize (D _ _ I0);
    destruct (decides_snoc ss p l n o D) as (D1 & D2).
  - assert (Kp : firstn (length p - 1) p = pkey p) by (unfold pkey; now rewrite W). rewrite Kp. destruct (starts (pkey p) n) eqn:S.
    + apply D1. now apply covers_wild.
    + apply D2. rewrite covers_wild by auto. congruence.
  - destruct (bytes_eqb n p) eqn:B.
    + apply D1. apply covers_exact; auto. apply bytes_eqb_eq in B. auto.
    + apply D2. rewrite covers_exact by auto. apply bytes_eqb_neq in B. congruence.
Qed.
Lemma linv_all : forall ss1 ss g, linv ss g -> linv (ss ++ ss1) (apply_all ss1 g).
Proof.
  induction ss1 as [|(p, l) ss1 IH]; intros ss g I; [now rewrite app_nil_r|]. unfold apply_all. cbn [fold_left fst snd].
  replace (ss ++ (p, l) :: ss1) with ((ss ++ [(p, l)]) ++ ss1) by (rewrite <- app_assoc; reflexivity). apply IH. now apply linv_set.
Qed.
Lemma set_names : forall p l g, map (fun e => (fst e, match snd e with Some _ => true | None => false end)) (lg_loggers (lg_set p l g)) =
  map (fun e => (fst e, match snd e with Some _ => true | None => false end)) (lg_loggers g).
Proof.
  intros p l g. unfold lg_set. destruct (match p with [] => true | _ => _ end); cbn [lg_loggers]; rewrite map_map; apply map_ext; intros (n, [o|]); reflexivity.
Qed.
Definition kinds (g : logging) : list (bytes * bool) := map (fun e => (fst e, match snd e with Some _ => true | None => false end)) (lg_loggers g).
Lemma all_names : forall ss g, kinds (apply_all ss g) = kinds g.
Proof.
  induction ss as [|(p, l) ss IH]; intro g; [reflexivity|]. unfold apply_all. cbn [fold_left fst snd]. fold (apply_all ss (lg_set p l g)). rewrite IH. apply set_names.
Qed.
Lemma run_linv : forall os ss g g' es, linv ss g -> lg_run os g = (g', es) -> exists ss1, said os ss1 es /\ linv (ss ++ ss1) g'.
Proof.
  induction os as [|o os IH]; intros ss g g' es I H; cbn [lg_run] in H.
  - injection H as <- <-. exists []. rewrite app_nil_r. split; [constructor|exact I].
  - destruct (lg_step o g) as [g1 r] eqn:S. destruct (lg_run os g1) as [g2 l] eqn:R. injection H as <- <-. destruct o as [p lv|s|n|n]; cbn [lg_step] in S.
    + injection S as <- <-. destruct (IH _ _ _ _ (linv_set ss g p lv I) R) as (ss1 & A & B). exists ((p, lv) :: ss1). split; [now constructor|]. now rewrite <- app_assoc in B.
    + apply config_spec in S as (ss0 & C & ->); [|lia]. destruct (IH _ _ _ _ (linv_all ss0 ss g I) R) as (ss1 & A & B). exists (ss0 ++ ss1). split; [now constructor|]. now rewrite app_assoc.
    + unfold lg_add in S. destruct (isValidLoggerName n) eqn:V; injection S as <- <-.
      * assert (I' : linv ss (mkLg (lg_enabled g) (lg_loggers g ++ [(n, Some (findLevel (lg_enabled g) n))]))).
        { destruct I as (T & D). split; [exact T|]. intros Doc n0 lv J. cbn [lg_loggers] in J. apply in_app_or in J as [J|[J|[]]]; [now apply D|]. injection J as <- <-. now apply find_decides. }
        destruct (IH _ _ _ _ I' R) as (ss1 & A & B). exists ss1. split; [|exact B]. apply sd_add; auto. apply valid_iff in V. tauto.
      * destruct (IH _ _ _ _ I R) as (ss1 & A & B). exists ss1. split; [|exact B]. apply sd_add; auto. rewrite <- valid_iff. split; congruence.
    + unfold lg_register in S. destruct (isValidLoggerName n) eqn:V; injection S as <- <-.
      * assert (I' : linv ss (mkLg (lg_enabled g) (lg_loggers g ++ [(n, None)]))).
        { destruct I as (T & D). split; [exact T|]. intros Doc n0 lv J. cbn [lg_loggers] in J. apply in_app_or in J as [J|[J|[]]]; [now apply D|]. discriminate J. }
        destruct (IH _ _ _ _ I' R) as (ss1 & A & B). exists ss1. split; [|exact B]. apply sd_register; auto. apply valid_iff in V. tauto.
      * destruct (IH _ _ _ _ I R) as (ss1 & A & B). exists ss1. split; [|exact B]. apply sd_register; auto. rewrite <- valid_iff. split; congruence.
Qed.
(* the loggers and registered names, in the order of their making *)
Definition made (os : list lg_op) : list (bytes * bool) :=
  flat_map (fun o => match o with LAdd n => if isValidLoggerName n then [(n, true)] else [] | LRegister n => if isValidLoggerName n then [(n, false)] else [] | _ => [] end) os.
Lemma run_made : forall os g, kinds (fst (lg_run os g)) = kinds g ++ made os.
Proof.
  induction os as [|o os IH]; intro g; cbn [lg_run made flat_map]; [now rewrite app_nil_r|].
  destruct (lg_step o g) as [g1 r] eqn:S. destruct (lg_run os g1) as [g2 l] eqn:R. cbn [fst]. specialize (IH g1). rewrite R in IH. cbn [fst] in IH. rewrite IH. fold (made os). rewrite app_assoc. f_equal.
  destruct o as [p lv|s|n|n]; cbn [lg_step] in S.
  - injection S as <- <-. rewrite app_nil_r. apply set_names.
  - apply config_spec in S as (ss0 & C & ->); [|lia]. rewrite app_nil_r. apply all_names.
  - unfold lg_add in S. destruct (isValidLoggerName n); injection S as <- <-; [|now rewrite app_nil_r]. unfold kinds. cbn [lg_loggers]. now rewrite map_app.
  - unfold lg_register in S. destruct (isValidLoggerName n); injection S as <- <-; [|now rewrite app_nil_r]. unfold kinds. cbn [lg_loggers]. now rewrite map_app.
Qed.
Lemma made_iff : forall os n b, In (n, b) (made os) <-> logger_name n /\ In (if b then LAdd n else LRegister n) os.
Proof.
  intros os n b. unfold made. rewrite in_flat_map. split.
  - intros (o & I & H). destruct o as [p lv|s|m|m]; try contradiction; destruct (isValidLoggerName m) eqn:V; try contradiction; destruct H as [H|[]]; injection H as -> <-; apply valid_iff in V; auto.
  - intros (V & I). apply valid_iff in V. eexists. split; [exact I|]. destruct b; rewrite V; now left.
Qed.
(* ---- what is said is determined ---- *)
Lemma colon_split : forall c (t r t' r' : bytes), ~ In c t -> ~ In c t' -> t ++ c :: r = t' ++ c :: r' -> t = t' /\ r = r'.
Proof.
  intros c t r t' r' N N' E. apply notin_forallb in N, N'. pose proof (split_at_app c t r N) as A. pose proof (split_at_app c t' r' N') as B. rewrite E, B in A. now injection A as -> ->.
Qed.
Lemma item_fun : forall t p l p' l', item t p l -> item t p' l' -> p = p' /\ l = l'.
Proof.
  intros t p l p' l' A B. apply item_split in A as (v & A1 & A2). apply item_split in B as (v' & B1 & B2). rewrite A1 in B1. injection B1 as -> ->. rewrite A2 in B2. injection B2 as ->. auto.
Qed.
Lemma config_fun : forall s ss e, config s ss e -> forall s' ss' e', config s' ss' e' -> s = s' -> ss = ss' /\ e = e'.
Proof.
  assert (NC : forall t t' r, ~ In cColon t -> t = t' ++ cColon :: r -> False) by (intros t t' r N ->; apply N; apply in_or_app; right; now left).
  assert (NN : forall (t : bytes) r, [] = t ++ cColon :: r -> False) by (intros [|] r H; discriminate H).
  intros s ss e C. induction C as [|t p l NE N I|t rest p l ss e N I C IH|t NE N I|t rest N I]; intros s' ss' e' C' E;
    destruct C' as [|t' p' l' NE' N' I'|t' rest' p' l' ss' e' N' I' C'|t' NE' N' I'|t' rest' N' I']; subst; auto;
    try (exfalso; now eauto); try (exfalso; symmetry in E; now eauto); try (exfalso; now apply (I' _ _ I)); try (exfalso; now apply (I _ _ I'));
    try (destruct (item_fun _ _ _ _ _ I I') as (-> & ->); now auto).
  - apply colon_split in E as (-> & ->); auto. destruct (item_fun _ _ _ _ _ I I') as (-> & ->). destruct (IH _ _ _ C' eq_refl) as (-> & ->). auto.
  - apply colon_split in E as (-> & _); auto. exfalso. now apply (I' _ _ I).
  - apply colon_split in E as (-> & _); auto. exfalso. now apply (I _ _ I').
Qed.
Lemma said_fun : forall os ss es, said os ss es -> forall ss' es', said os ss' es' -> ss = ss'.
Proof.
  intros os ss es S. induction S; intros ss' es' S'; inversion S'; subst; auto.
  - f_equal. eauto.
  - f_equal; [|eauto]. eapply config_fun; eauto.
  - eauto.
  - eauto.
Qed.
Lemma decides_fun : forall ss n l l', decides ss n l -> decides ss n l' -> l = l'.
Proof.
  assert (X : forall ss n s1 p (l : level) s2, ss = s1 ++ (p, l) :: s2 -> covers p n -> Forall (fun s => ~ covers (fst s) n) ss -> False).
  { intros ss n s1 p l s2 -> C F. apply Forall_app in F as (_ & F). inversion F as [|? ? F0 _]; subst. now apply F0. }
  intros ss n l l' [(s1 & p & s2 & E & C & F)|(-> & F)] [(s1' & p' & s2' & E' & C' & F')|(-> & F')]; auto; try (exfalso; now eauto).
  rewrite E in E'. apply split_two in E' as [(z & _ & ->)|[(_ & Q & _)|(z & _ & ->)]].
  - exfalso. apply Forall_app in F as (_ & F). inversion F as [|? ? F0 _]; subst. now apply F0.
  - now injection Q.
  - exfalso. apply Forall_app in F' as (_ & F'). inversion F' as [|? ? F0 _]; subst. now apply F0.
Qed.

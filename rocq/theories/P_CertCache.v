From Coq Require Import List ZArith Lia ZifyBool ZifyNat ZifyN.
From Verif Require Import Base BaseLemmas S_Name P_NameOrder M_Ims S_Ims P_Ims M_CertCache S_CertCache.
Import ListNotations.
Open Scope Z_scope.

Definition tsorted (l : list centry) : Prop := Sorted.StronglySorted (fun a b => ce_removal a <= ce_removal b) l.
Definition nsorted (l : list centry) : Prop := Sorted.StronglySorted (fun a b => names_lt (ce_name a) (ce_name b)) l.
Definition distinct (l : list centry) : Prop := NoDup (map ce_name l).

Lemma time_insert_in : forall e l x, In x (time_insert e l) <-> x = e \/ In x l.
Proof.
  intros e. induction l as [|y l IH]; intro x; cbn [time_insert]; [cbn; intuition congruence|]. destruct (ce_removal e <? ce_removal y); cbn [In]; [intuition congruence|]. rewrite IH. cbn [In]. tauto.
Qed.
Lemma time_insert_sorted : forall e l, tsorted l -> tsorted (time_insert e l).
Proof.
  intros e. induction l as [|y l IH]; intro H; cbn [time_insert]; [repeat constructor|]. inversion H as [|? ? H1 H2]; subst. rewrite Forall_forall in H2. destruct (Z.ltb_spec (ce_removal e) (ce_removal y)).
  - constructor; [exact H|]. constructor; [lia|]. apply Forall_forall. intros z Z. specialize (H2 z Z). lia.
  - constructor; [apply IH; exact H1|]. apply Forall_forall. intros z Z. apply time_insert_in in Z. destruct Z as [->|Z]; [lia|apply H2; exact Z].
Qed.
Lemma time_insert_distinct : forall e l, distinct l -> (forall x, In x l -> ce_name x <> ce_name e) -> distinct (time_insert e l).
Proof.
  unfold distinct. intros e. induction l as [|y l IH]; intros H N; cbn [time_insert]; [repeat constructor; intros []|]. cbn [map] in H. inversion H as [|? ? H1 H2]; subst.
  destruct (ce_removal e <? ce_removal y); cbn [map].
  - constructor; [|constructor; assumption]. intros [I|I]; [apply (N y (or_introl eq_refl) I)|]. apply in_map_iff in I. destruct I as (z & E & I). apply (N z (or_intror I) E).
  - constructor; [|apply IH; [exact H2|intros x X; apply N; right; exact X]]. intro I. apply in_map_iff in I. destruct I as (z & E & I). apply time_insert_in in I.
    destruct I as [->|I]; [apply (N y (or_introl eq_refl)); symmetry; exact E|]. apply H1. rewrite <- E. apply in_map. exact I.
Qed.
Lemma drop_expired_in : forall now l x, tsorted l -> In x (drop_expired now l) <-> In x l /\ now <= ce_removal x.
Proof.
  intros now. induction l as [|y l IH]; intros x H; cbn [drop_expired]; [cbn; tauto|]. inversion H as [|? ? H1 H2]; subst. rewrite Forall_forall in H2.
  destruct (Z.ltb_spec (ce_removal y) now).
  - rewrite IH by exact H1. cbn [In]. split; [tauto|]. intros [[->|I] L]; [lia|auto].
  - split; [|tauto]. intros [<-|I]; [split; [left; reflexivity|lia]|]. split; [right; exact I|]. specialize (H2 x I). lia.
Qed.
Lemma drop_expired_sorted : forall now l, tsorted l -> tsorted (drop_expired now l).
Proof. intros now. induction l as [|y l IH]; intro H; cbn [drop_expired]; [exact H|]. inversion H; subst. destruct (_ <? _); auto. Qed.
Lemma drop_expired_distinct : forall now l, distinct l -> distinct (drop_expired now l).
Proof. unfold distinct. intros now. induction l as [|y l IH]; intro H; cbn [drop_expired]; [exact H|]. cbn [map] in H. inversion H; subst. destruct (_ <? _); auto. Qed.

Lemma name_insert_in : forall e l x, In x (name_insert e l) <-> x = e \/ In x l.
Proof.
  intros e. induction l as [|y l IH]; intro x; cbn [name_insert]; [cbn; intuition congruence|]. destruct (names_ltb _ _); cbn [In]; [intuition congruence|]. rewrite IH. cbn [In]. tauto.
Qed.
Lemma names_in : forall s x, In x (cc_names s) <-> In x (cc_time s).
Proof. intros s x. unfold cc_names. induction (cc_time s) as [|y l IH]; cbn [fold_right]; [tauto|]. rewrite name_insert_in, IH. cbn [In]. intuition congruence. Qed.
Lemma name_insert_sorted : forall e l, nsorted l -> (forall x, In x l -> ce_name x <> ce_name e) -> nsorted (name_insert e l).
Proof.
  intros e. induction l as [|y l IH]; intros H N; cbn [name_insert]; [repeat constructor|]. inversion H as [|? ? H1 H2]; subst. rewrite Forall_forall in H2. destruct (names_ltb _ _) eqn:L.
  - apply names_ltb_lt in L. constructor; [exact H|]. constructor; [exact L|]. apply Forall_forall. intros z Z. eapply names_lt_trans; [exact L|apply H2; exact Z].
  - apply names_ltb_ge in L. constructor; [apply IH; [exact H1|intros x X; apply N; right; exact X]|]. apply Forall_forall. intros z Z. apply name_insert_in in Z. destruct Z as [->|Z]; [|apply H2; exact Z].
    destruct L as [L|L]; [elim (N y (or_introl eq_refl)); exact L|exact L].
Qed.
Lemma names_sorted : forall s, distinct (cc_time s) -> nsorted (cc_names s).
Proof.
  intros s. unfold cc_names, distinct. induction (cc_time s) as [|y l IH]; intro H; cbn [fold_right]; [constructor|]. cbn [map] in H. inversion H; subst. apply name_insert_sorted; [apply IH; assumption|].
  intros x X E. apply H2. rewrite <- E. apply in_map. clear - X. revert X. induction l as [|z l IHl]; cbn [fold_right]; [tauto|]. rewrite name_insert_in. cbn [In]. intuition congruence.
Qed.
Lemma lower_in : forall n l x, nsorted l -> In x (lower_name n l) <-> In x l /\ ~ names_lt (ce_name x) n.
Proof.
  intros n. induction l as [|y l IH]; intros x H; cbn [lower_name]; [cbn; tauto|]. inversion H as [|? ? H1 H2]; subst. rewrite Forall_forall in H2. destruct (names_ltb _ _) eqn:L.
  - apply names_ltb_lt in L. rewrite IH by exact H1. cbn [In]. split; [tauto|]. intros [[->|I] Q]; [contradiction|auto].
  - split; [|tauto]. assert (NL : ~ names_lt (ce_name y) n) by (rewrite <- names_ltb_lt; congruence). intros [<-|I]; [split; [left; reflexivity|exact NL]|]. split; [right; exact I|].
    intro Q. apply NL. eapply names_lt_trans; [apply H2; exact I|exact Q].
Qed.
Lemma lower_sorted : forall n l, nsorted l -> nsorted (lower_name n l).
Proof. intros n. induction l as [|y l IH]; intro H; cbn [lower_name]; [exact H|]. inversion H; subst. destruct (names_ltb _ _); auto. Qed.
Lemma between : forall n x y, ~ names_lt x n -> names_lt x y -> is_prefix n y -> is_prefix n x.
Proof.
  intros n x y G L [t E]. subst y. destruct (names_prefix_between n [] x t) as [c Ec]; [|left; exact L|exists c; exact Ec]. rewrite app_nil_r. destruct (names_lt_tri n x) as [T|[T|T]]; auto. contradiction.
Qed.
Lemma first_spec : forall n l, nsorted l -> let r := match lower_name n l with [] => None | e :: _ => if prefixb n (ce_name e) then Some (ce_cert e) else None end in
  first_by_name (fun c => is_prefix n (ct_name c) /\ exists e, In e l /\ ce_cert e = c) r.
Proof.
  intros n l H. cbn zeta. pose proof (lower_sorted n l H) as LS. pose proof (fun x => lower_in n l x H) as LI.
  assert (PI : forall x, In x l -> is_prefix n (ce_name x) -> In x (lower_name n l)).
  { intros x I P. apply LI. split; [exact I|]. intro Q. apply prefix_ge in P. destruct P as [P|P]; [rewrite P in Q; exact (names_lt_irr _ Q)|exact (names_lt_irr _ (names_lt_trans _ _ _ P Q))]. }
  destruct (lower_name n l) as [|e m].
  - intros d (P & x & I & <-). elim (PI x I P).
  - inversion LS as [|? ? L1 L2]; subst. rewrite Forall_forall in L2. destruct (prefixb n (ce_name e)) eqn:P.
    + apply prefixb_iff in P. split; [split; [exact P|exists e; split; [apply LI; left; reflexivity|reflexivity]]|]. intros d (Q & x & I & <-). destruct (PI x I Q) as [<-|J]; [left; reflexivity|]. right. apply L2. exact J.
    + intros d (Q & x & I & <-). assert (NP : ~ is_prefix n (ce_name e)) by (rewrite <- prefixb_iff; congruence). destruct (PI x I Q) as [<-|J]; [contradiction|]. apply NP. eapply between; [apply LI; left; reflexivity|apply L2; exact J|exact Q].
Qed.
Lemma scan_spec : forall q l, nsorted l -> (forall x, In x l -> ~ names_lt (ce_name x) (q_name q)) ->
  first_by_name (fun c => is_prefix (q_name q) (ct_name c) /\ q_accepts q (ct_pk c) /\ exists e, In e l /\ ce_cert e = c) (scan_match q l).
Proof.
  intros q. induction l as [|e l IH]; intros H G; cbn [scan_match]; [intros d (_ & _ & x & [] & _)|]. inversion H as [|? ? L1 L2]; subst. rewrite Forall_forall in L2.
  destruct (prefixb (q_name q) (ce_name e)) eqn:P.
  - apply prefixb_iff in P. destruct (q_matches q (ct_pk (ce_cert e))) eqn:M.
    + apply q_matches_iff in M. split; [splits; [exact P|exact M|exists e; split; [left; reflexivity|reflexivity]]|]. intros d (_ & _ & x & [<-|I] & <-); [left; reflexivity|right; apply L2; exact I].
    + assert (NM : ~ q_accepts q (ct_pk (ce_cert e))) by (rewrite <- q_matches_iff; congruence). specialize (IH L1 (fun x I => G x (or_intror I))). destruct (scan_match q l) as [c|]; cbn [first_by_name] in *.
      * destruct IH as [(A & B & x & I & E) F]. split; [splits; auto; exists x; split; [right; exact I|exact E]|]. intros d (A' & B' & y & [<-|J] & <-); [contradiction|]. apply F. splits; auto. exists y. auto.
      * intros d (A' & B' & y & [<-|J] & <-); [contradiction|]. apply (IH (ce_cert y)). splits; auto. exists y. auto.
  - assert (NP : ~ is_prefix (q_name q) (ce_name e)) by (rewrite <- prefixb_iff; congruence). intros d (Q & _ & x & [<-|I] & <-); [contradiction|]. apply NP. eapply between; [apply G; left; reflexivity|apply L2; exact I|exact Q].
Qed.

(* ---- the cache holds what the history says ---- *)
Definition holds_of (max : Z) (h : list ccop) (s : ccache) : Prop :=
  cc_max s = max /\ tsorted (cc_time s) /\ distinct (cc_time s) /\
  (forall e, In e (cc_time s) <-> exists t0 na, cached max h (ce_cert e) t0 /\ ct_notAfter (ce_cert e) = Some na /\ ce_removal e = Z.min na (t0 + max)).
Lemma cached_good : forall max h c t0, 0 <= max -> cached max h c t0 -> good_until max t0 c t0.
Proof.
  intros max h c t0 M. induction h as [|o h IH]; cbn [cached]; [intros []|]. destruct o as [t d| |t n|t q]; [|intros []|intros [H _]; auto|intros [H _]; auto].
  intros [H|(-> & -> & H & _)]; auto.
Qed.
Lemma holds_cached : forall max h s c t0, 0 <= max -> holds_of max h s -> cached max h c t0 -> exists na, ct_notAfter c = Some na /\ In (mkCE c (Z.min na (t0 + max))) (cc_time s).
Proof. intros max h s c t0 M (_ & _ & _ & H) C. destruct (cached_good _ _ _ _ M C) as (na & E & _). exists na. split; [exact E|]. apply H. exists t0, na. auto. Qed.
Lemma refresh_holds : forall max h s t, 0 <= max -> holds_of max h s -> cc_max (cc_refresh t s) = max /\ tsorted (cc_time (cc_refresh t s)) /\ distinct (cc_time (cc_refresh t s)) /\
  (forall e, In e (cc_time (cc_refresh t s)) <-> exists t0 na, (cached max h (ce_cert e) t0 /\ good_until max t0 (ce_cert e) t) /\ ct_notAfter (ce_cert e) = Some na /\ ce_removal e = Z.min na (t0 + max)).
Proof.
  intros max h s t M0 H. pose proof H as (M & T & D & E). unfold cc_refresh. cbn [cc_time cc_max]. splits; auto using drop_expired_sorted, drop_expired_distinct. intro e. rewrite drop_expired_in by exact T. rewrite E. split.
  - intros ((t0 & na & C & N & R) & L). exists t0, na. splits; auto. destruct (cached_good _ _ _ _ M0 C) as (na' & N' & L1 & _). assert (na' = na) by congruence. subst na'. exists na. splits; auto; lia.
  - intros (t0 & na & [C (na' & N' & L1 & L2 & L3)] & N & R). split; [exists t0, na; auto|]. rewrite R. assert (na' = na) by congruence. lia.
Qed.
Lemma step_holds : forall max h s o, 0 <= max -> holds_of max h s -> (forall t, time_of o = Some t -> - 2 ^ 63 <= t /\ t + max < 2 ^ 63) -> holds_of max (o :: h) (fst (cc_step o s)).
Proof.
  intros max h s o M0 H TM. destruct o as [t c| |t n|t q]; cbn [cc_step fst].
  - pose proof H as (M & T & D & E). specialize (TM t eq_refl). unfold cc_insert. destruct (ct_notAfter c) as [na|] eqn:NA.
    + destruct (Z.ltb_spec na t) as [L|L].
      * unfold holds_of. splits; auto. intro e. rewrite E. cbn [cached]. split; intros (t0 & na0 & C & X); exists t0, na0; [tauto|]. destruct C as [C|(-> & -> & (na' & N' & G) & _)]; [tauto|]. rewrite NA in N'. injection N' as <-. lia.
      * rewrite M. unfold tp_add. replace ((-(2 ^ 63) <=? t + max) && (t + max <? 2 ^ 63)) with true by (symmetry; apply andb_true_intro; split; lia). cbn [bind].
        destruct (existsb _ _) eqn:X.
        -- assert (BL : exists e u, same_name e c /\ cached max h e u).
           { apply existsb_exists in X. destruct X as (x & I & X). apply names_eqb_eq in X. apply E in I. destruct I as (t0 & na0 & C & _). exists (ce_cert x), t0. auto. }
           unfold holds_of. splits; auto. intro e. rewrite E. cbn [cached]. split; intros (t0 & na0 & C & Y); exists t0, na0; [tauto|]. destruct C as [C|(Q & _ & _ & C)]; [tauto|]. exfalso. destruct BL as (d & u & S1 & S2). rewrite Q in C. exact (C d u S1 S2).
        -- assert (FR : forall x, In x (cc_time s) -> ce_name x <> ct_name c).
           { intros x I Q. apply names_eqb_eq in Q. assert (existsb (fun e => names_eqb (ce_name e) (ct_name c)) (cc_time s) = true); [apply existsb_exists; exists x; auto|congruence]. }
           unfold holds_of. cbn [cc_time cc_max]. splits; [reflexivity|apply time_insert_sorted; exact T|apply time_insert_distinct; [exact D|exact FR]|].
           intro e. rewrite time_insert_in, E. cbn [cached]. split.
           ++ intros [->|(t0 & na0 & C & Y)]; [|exists t0, na0; tauto]. cbn [ce_cert ce_removal]. exists t, na. splits; auto. right. splits; auto; [exists na; splits; auto; lia|].
              intros d u S1 S2. destruct (holds_cached _ _ _ _ _ M0 H S2) as (na' & _ & I). apply (FR _ I). exact S1.
           ++ intros (t0 & na0 & [C|(Q & -> & _ & _)] & N & R); [right; exists t0, na0; auto|]. left. destruct e as [ec er]. cbn [ce_cert ce_removal] in *. subst. congruence.
    + unfold holds_of. splits; auto. intro e. rewrite E. cbn [cached]. split; intros (t0 & na0 & C & X); exists t0, na0; [tauto|]. destruct C as [C|(-> & -> & (na' & N' & G) & _)]; [tauto|congruence].
  - destruct H as (M & T & D & E). unfold holds_of, cc_clear. cbn [cc_time cc_max cached]. splits; auto; [constructor|constructor|]. intro e. split; [intros []|intros (t0 & na & [] & _)].
  - exact (refresh_holds max h s t M0 H).
  - exact (refresh_holds max h s t M0 H).
Qed.
Lemma run_holds : forall max l h s, 0 <= max -> holds_of max h s -> (forall o t, In o l -> time_of o = Some t -> - 2 ^ 63 <= t /\ t + max < 2 ^ 63) -> holds_of max (rev l ++ h) (cc_run l s).
Proof.
  intros max. induction l as [|o l IH]; intros h s M H TM; [exact H|]. cbn [rev cc_run]. rewrite <- app_assoc. cbn [app]. apply IH; [exact M|apply step_holds; [exact M|exact H|intro t; apply TM; left; reflexivity]|intros o' t I; apply TM; right; exact I].
Qed.
Lemma holds_new : forall max, holds_of max [] (cc_new max).
Proof. intro max. unfold holds_of. cbn. splits; auto; try constructor. - intros []. - intros (t0 & na & [] & _). Qed.
Lemma run_new : forall max l, sane max l -> holds_of max (rev l) (cc_run l (cc_new max)).
Proof. intros max l [M H]. pose proof (run_holds max l [] (cc_new max) M (holds_new max) H) as X. rewrite app_nil_r in X. exact X. Qed.
Definition usable_at (max : Z) (h : list ccop) (now : Z) (c : cert) : Prop := exists t0, cached max h c t0 /\ good_until max t0 c now.
Lemma first_ext : forall (P Q : cert -> Prop) r, (forall c, P c <-> Q c) -> first_by_name P r -> first_by_name Q r.
Proof. intros P Q [c|] E; cbn [first_by_name]; [intros [A B]; split; [apply E; exact A|intros d D; apply B; apply E; exact D]|intros A d D; apply (A d); apply E; exact D]. Qed.
Lemma refresh_usable : forall max h s now c, 0 <= max -> holds_of max h s -> (exists e, In e (cc_time (cc_refresh now s)) /\ ce_cert e = c) <-> usable_at max h now c.
Proof.
  intros max h s now c M H. destruct (refresh_holds max h s now M H) as (_ & _ & _ & E). split.
  - intros (e & I & <-). apply E in I. destruct I as (t0 & na & [C G] & _). exists t0. auto.
  - intros (t0 & C & G). destruct (cached_good _ _ _ _ M C) as (na & N & _). exists (mkCE c (Z.min na (t0 + max))). split; [|reflexivity]. apply E. exists t0, na. cbn [ce_cert ce_removal]. auto.
Qed.
Lemma findName_spec : forall max h s now n, 0 <= max -> holds_of max h s -> first_by_name (fun c => is_prefix n (ct_name c) /\ usable_at max h now c) (snd (cc_findName now n s)).
Proof.
  intros max h s now n M H. destruct (refresh_holds max h s now M H) as (_ & _ & D & _). unfold cc_findName. cbn [snd].
  eapply first_ext; [|apply first_spec; apply names_sorted; exact D]. intro c. cbn beta. rewrite <- (refresh_usable max h s now c M H). split; intros (P & e & I & E); (split; [exact P|exists e; split; [apply names_in; exact I|exact E]]).
Qed.
Lemma findInterest_spec : forall max h s now q, 0 <= max -> holds_of max h s -> first_by_name (fun c => is_prefix (q_name q) (ct_name c) /\ q_accepts q (ct_pk c) /\ usable_at max h now c) (snd (cc_findInterest now q s)).
Proof.
  intros max h s now q M H. destruct (refresh_holds max h s now M H) as (_ & _ & D & _). unfold cc_findInterest. cbn [snd]. pose proof (names_sorted (cc_refresh now s) D) as NS.
  eapply first_ext; [|apply scan_spec; [apply lower_sorted; exact NS|intros x I; apply lower_in in I; [tauto|exact NS]]]. intro c. cbn beta. rewrite <- (refresh_usable max h s now c M H). split; intros (P & A & e & I & E); (split; [exact P|split; [exact A|]]); exists e; (split; [|exact E]).
  - apply names_in. apply lower_in in I; [tauto|exact NS].
  - apply lower_in; [exact NS|]. split; [apply names_in; exact I|]. rewrite <- E in P. apply prefix_ge in P. intro Q. unfold ce_name in *. destruct P as [P|P]; [rewrite P in Q; exact (names_lt_irr _ Q)|exact (names_lt_irr _ (names_lt_trans _ _ _ P Q))].
Qed.

(* C55: the certificate cache.  Specification: S_CertCache. *)
From Coq Require Import List ZArith Lia ZifyBool ZifyNat ZifyN String.
From Verif Require Import Base BaseLemmas S_Name P_NameOrder M_Ims S_Ims P_Ims M_CertCache S_CertCache P_CertCache.
Import ListNotations.
Open Scope list_scope.
Open Scope Z_scope.

(* A lookup by name prefix, or by Interest, after any history and at any clock reading (the clock may also go back): the first, in canonical order,
   of the certificates held whose NotAfter and cache lifetime are not past and that match. *)
Theorem C55_find : forall max l now n, sane max l ->
  first_by_name (fun c => is_prefix n (ct_name c) /\ exists t0, cached max (rev l) c t0 /\ good_until max t0 c now) (snd (cc_findName now n (cc_run l (cc_new max)))).
Proof. intros max l now n H. apply findName_spec; [apply H|apply run_new; exact H]. Qed.
Print Assumptions C55_find.
Theorem C55_find_interest : forall max l now q, sane max l ->
  first_by_name (fun c => is_prefix (q_name q) (ct_name c) /\ q_accepts q (ct_pk c) /\ exists t0, cached max (rev l) c t0 /\ good_until max t0 c now)
    (snd (cc_findInterest now q (cc_run l (cc_new max)))).
Proof. intros max l now q H. apply findInterest_spec; [apply H|apply run_new; exact H]. Qed.
Print Assumptions C55_find_interest.

(* In terms of the calls made.  A certificate found was inserted, no clear() came since, and the lookup is not later than its NotAfter nor than max
   after the insertion; the same holds for every lookup in between. *)
Lemma cached_history : forall max h c t0, cached max h c t0 -> exists h1 h2, h = h1 ++ CIns t0 c :: h2 /\ ~ In CClear h1 /\ good_until max t0 c t0 /\
  (forall o t, In o h1 -> (exists n, o = CFindN t n) \/ (exists q, o = CFindI t q) -> good_until max t0 c t).
Proof.
  intros max h c t0. induction h as [|o h IH]; [intros []|]. destruct o as [t d| |t n|t q]; cbn [cached]; [|intros []| |].
  - intros [H|(-> & -> & G & _)]; [|exists [], h; splits; auto; intros ? ? []]. destruct (IH H) as (h1 & h2 & E & NC & G & F). exists (CIns t d :: h1), h2. rewrite E. splits; auto; [intros [Q|Q]; [discriminate|exact (NC Q)]|].
    intros o t' [<-|I] K; [destruct K as [[n K]|[q K]]; discriminate|eapply F; eauto].
  - intros [H G']. destruct (IH H) as (h1 & h2 & E & NC & G & F). exists (CFindN t n :: h1), h2. rewrite E. splits; auto; [intros [Q|Q]; [discriminate|exact (NC Q)]|].
    intros o t' [<-|I] K; [destruct K as [[n' K]|[q K]]; [injection K as -> _; exact G'|discriminate]|eapply F; eauto].
  - intros [H G']. destruct (IH H) as (h1 & h2 & E & NC & G & F). exists (CFindI t q :: h1), h2. rewrite E. splits; auto; [intros [Q|Q]; [discriminate|exact (NC Q)]|].
    intros o t' [<-|I] K; [destruct K as [[n' K]|[q' K]]; [discriminate|injection K as -> _; exact G']|eapply F; eauto].
Qed.
Theorem C55_expiry : forall max l now c, sane max l ->
  (exists n, snd (cc_findName now n (cc_run l (cc_new max))) = Some c) \/ (exists q, snd (cc_findInterest now q (cc_run l (cc_new max))) = Some c) ->
  exists l1 t0 l2, l = l1 ++ CIns t0 c :: l2 /\ ~ In CClear l2 /\ exists na, ct_notAfter c = Some na /\ t0 <= na /\ now <= na /\ now <= t0 + max.
Proof.
  intros max l now c H F. assert (X : exists t0, cached max (rev l) c t0 /\ good_until max t0 c now).
  { destruct F as [[n F]|[q F]]; [pose proof (C55_find max l now n H) as P|pose proof (C55_find_interest max l now q H) as P]; rewrite F in P; cbn [first_by_name] in P; tauto. }
  destruct X as (t0 & C & G). destruct (cached_history _ _ _ _ C) as (h1 & h2 & E & NC & _). exists (rev h2), t0, (rev h1).
  apply (f_equal (@rev _)) in E. rewrite rev_involutive, rev_app_distr in E. cbn [rev] in E. rewrite <- app_assoc in E. splits; auto. intro I. apply NC. apply in_rev. exact I.
Qed.
Print Assumptions C55_expiry.

(* A certificate inserted when none of its name is held is found by its name, and by every prefix of it something at or before it is found, as long as
   clear() is not called, and no lookup happens past its NotAfter or its lifetime. *)
Theorem C55_found : forall max l1 t0 c l2 now na, sane max (l1 ++ CIns t0 c :: l2) -> ct_notAfter c = Some na -> t0 <= na ->
  (forall d u, same_name d c -> ~ cached max (rev l1) d u) -> ~ In CClear l2 ->
  (forall t, (exists n, In (CFindN t n) l2) \/ (exists q, In (CFindI t q) l2) \/ t = now -> t <= Z.min na (t0 + max)) ->
  let s := cc_run (l1 ++ CIns t0 c :: l2) (cc_new max) in
  snd (cc_findName now (ct_name c) s) = Some c /\
  (forall n, is_prefix n (ct_name c) -> exists d, snd (cc_findName now n s) = Some d /\ is_prefix n (ct_name d) /\ (d = c \/ names_lt (ct_name d) (ct_name c))).
Proof.
  intros max l1 t0 c l2 now na H N L FR NC TM. cbn zeta.
  assert (G : forall t, (exists n, In (CFindN t n) l2) \/ (exists q, In (CFindI t q) l2) \/ t = now -> good_until max t0 c t) by (intros t T; apply TM in T; exists na; splits; auto; lia).
  assert (C : cached max (rev (l1 ++ CIns t0 c :: l2)) c t0).
  { rewrite rev_app_distr. cbn [rev]. rewrite <- app_assoc. cbn [app].
    assert (B : cached max (CIns t0 c :: rev l1) c t0). { cbn [cached]. right. splits; auto. destruct H as [M _]. exists na. splits; auto; lia. }
    assert (Q : forall o, In o (rev l2) -> In o l2) by (intros o; apply in_rev). revert Q. generalize (rev l2). induction l as [|o m IH]; intro Q; [exact B|]. specialize (IH (fun x I => Q x (or_intror I))). pose proof (Q o (or_introl eq_refl)) as I.
    cbn [app]. destruct o as [t d| |t n|t q]; [left; exact IH|elim (NC I)| |]; (split; [exact IH|]); apply G; eauto. }
  assert (U : exists t, cached max (rev (l1 ++ CIns t0 c :: l2)) c t /\ good_until max t c now) by (exists t0; auto).
  assert (F : forall n, is_prefix n (ct_name c) -> exists d, snd (cc_findName now n (cc_run (l1 ++ CIns t0 c :: l2) (cc_new max))) = Some d /\ is_prefix n (ct_name d) /\ (d = c \/ names_lt (ct_name d) (ct_name c))).
  { intros n P. pose proof (C55_find max _ now n H) as X. destruct (snd _) as [d|]; cbn [first_by_name] in X; [|elim (X c); auto]. exists d. destruct X as [(P' & _) X]. splits; auto. destruct (X c (conj P U)) as [<-|Y]; auto. }
  split; [|exact F]. destruct (F (ct_name c)) as (d & E & P & [->|Q]); [exists []; rewrite app_nil_r; reflexivity|exact E|].
  exfalso. apply prefix_ge in P. destruct P as [P|P]; [rewrite P in Q; exact (names_lt_irr _ Q)|exact (names_lt_irr _ (names_lt_trans _ _ _ P Q))].
Qed.
Print Assumptions C55_found.

Ltac show_sane := split; [lia|]; let o := fresh "o" in let t := fresh "t" in let I := fresh "I" in let E := fresh "E" in intros o t I E; cbn in I; repeat (destruct I as [<-|I]; [cbn in E; injection E as <-; lia|]); destruct I.
(* The condition on certificates of the same name is needed. *)
Definition kn (s : string) : key := (8%N, str s).
Definition mkc (d : string) (na : Z) : cert := mkCert (mkPkt [kn "A"; kn "KEY"; kn "1"; kn "self"; kn "v1"] (str d)) (Some (0, na)).
(* (a) inserting a certificate again does not prolong its stay *)
Theorem C55_reinsert_refuted : exists max l t0 c now na, sane max (l ++ [CIns t0 c]) /\ ct_notAfter c = Some na /\ t0 <= na /\ t0 <= now <= Z.min na (t0 + max) /\
  snd (cc_findName now (ct_name c) (cc_run (l ++ [CIns t0 c]) (cc_new max))) = None.
Proof.
  exists 3600, [CIns 0 (mkc "x" 10000)], 1800, (mkc "x" 10000), 3700, 10000. splits; try reflexivity; try lia. show_sane.
Qed.
Print Assumptions C55_reinsert_refuted.
(* (b) a certificate is not taken in while an expired one of the same name has not been discarded by a lookup *)
Theorem C55_expired_blocks_refuted : exists max c' t0 c na, sane max [CIns 0 c'; CIns t0 c] /\ ct_notAfter c' = Some 10 /\ 10 < t0 /\ ct_notAfter c = Some na /\ t0 <= na /\ t0 <= t0 + max /\
  snd (cc_findName t0 (ct_name c) (cc_run [CIns 0 c'; CIns t0 c] (cc_new max))) = None.
Proof. exists 3600, (mkc "x" 10), 20, (mkc "y" 1000), 1000. splits; try reflexivity; try lia. show_sane. Qed.
Print Assumptions C55_expired_blocks_refuted.
(* (c) an Interest that gives the implicit digest does not find the certificate it matches *)
Theorem C55_digest_refuted : exists max l q c, sane max l /\ (exists t0, cached max (rev l) c t0 /\ good_until max t0 c 5) /\ q_accepts q (ct_pk c) /\ snd (cc_findInterest 5 q (cc_run l (cc_new max))) = None.
Proof.
  exists 3600, [CIns 0 (mkc "x" 100)], (mkQ (pk_full (ct_pk (mkc "x" 100))) false false), (mkc "x" 100). splits; try lia.
  - show_sane.
  - exists 0. split; [cbn; right; split; [reflexivity|]; split; [reflexivity|]; split; [exists 100; split; [reflexivity|lia]|intros e u _ []]|exists 100; split; [reflexivity|lia]].
  - left. reflexivity.
  - vm_compute. reflexivity.
Qed.
Print Assumptions C55_digest_refuted.

Example C55_ex : let c := mkc "x" 5000 in let l := [CFindN 0 []; CIns 10 c; CFindN 3000 (ct_name c)] in
  sane 3600 l /\ snd (cc_findName 3610 [kn "A"; kn "KEY"] (cc_run l (cc_new 3600))) = Some c /\ snd (cc_findName 3611 [kn "A"; kn "KEY"] (cc_run l (cc_new 3600))) = None /\
  snd (cc_findInterest 3610 (mkQ [kn "A"; kn "KEY"; kn "1"] true false) (cc_run l (cc_new 3600))) = Some c.
Proof. cbn zeta. split; [show_sane|]. splits; vm_compute; reflexivity. Qed.

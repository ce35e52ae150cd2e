(* Proofs about Controller: datasets. *)
From Coq Require Import Lia ZifyBool ZifyNat ZifyN ZArith.
From Verif Require Import Base BaseLemmas M_Tlv S_Tlv M_Str M_Name M_Control S_Control M_NfdData S_NfdData M_Controller S_Controller P_Controller.
Open Scope N_scope.
Open Scope list_scope.

Definition rids (s : ctl) : list nat := map fst (ct_running s).
Record invD (s : ctl) (O : list cout) : Prop := {
  d_nodup : NoDup (rids s);
  d_low : forall id, In id (rids s) -> (id < ct_next s)%nat;
  d_run : forall id k, In (id, k) (ct_running s) -> In (OFetch id k) O;
  d_set : ct_set s = rids s;
  d_dead : ct_alive s = false -> ct_running s = [];
  d_flow : forall id k, In (OFetch id k) O -> (id < ct_next s)%nat;
  d_funiq : forall id k k', In (OFetch id k) O -> In (OFetch id k') O -> k = k';
  d_rlow : forall id, dreports id O <> [] -> (id < ct_next s)%nat
}.
(* outputs that are not about starting a dataset *)
Definition dplain (n : nat) (x : cout) : Prop := match x with OFetch _ _ => False | ODataset i _ => (i < n)%nat | _ => True end.
Lemma invD_plain : forall s s' O o, invD s O -> Forall (dplain (ct_next s')) o -> ct_running s' = ct_running s -> ct_set s' = ct_set s -> ct_alive s' = ct_alive s -> (ct_next s <= ct_next s')%nat -> invD s' (O ++ o).
Proof.
  intros s s' O o [A1 A2 A3 A4 A5 A6 A7 A8] F E1 E2 E3 L. rewrite Forall_forall in F.
  assert (IF : forall id k, In (OFetch id k) (O ++ o) -> In (OFetch id k) O) by (intros id k Q; apply in_app_iff in Q as [Q|Q]; auto; now apply F in Q).
  assert (C : rids s' = rids s) by (unfold rids; now rewrite E1).
  constructor; rewrite ?C, ?E1, ?E2, ?E3; auto.
  - intros id Q. apply A2 in Q. lia.
  - intros id k Q. apply in_app_iff. auto.
  - intros id k Q. apply IF, A6 in Q. lia.
  - intros id k k' Q1 Q2. apply IF in Q1, Q2. eauto.
  - intros id. rewrite dreports_app. intro Q. destruct (dreports id O) eqn:D.
    + cbn in Q. assert (exists r, In (ODataset id r) o) as (r & I). { clear - Q. induction o as [|x o IH]; [now elim Q|].
      assert (K : dreports id o <> [] -> exists r, In (ODataset id r) (x :: o)) by (intro Z; destruct (IH Z) as (r & I); exists r; now right).
      destruct x as [i c0 k0|i k0|i c0|i r0|i r0|]; try (apply K; exact Q). destruct (Nat.eqb_spec i id) as [->|N]; [exists r0; now left|]. apply K. cbn in Q. destruct (Nat.eqb_spec i id); [contradiction|exact Q]. }
      apply F in I. exact I.
    + specialize (A8 id). rewrite D in A8. assert (id < ct_next s)%nat by (apply A8; discriminate). lia.
Qed.
Lemma act_invD : forall a s O s' o, invD s O -> ct_act a s = (s', o) -> invD s' (O ++ o).
Proof.
  intros a s O s' o I H. unfold ct_act in H. destruct (ct_alive s) eqn:AL; cbn [negb] in H; [|injection H as <- <-; apply (invD_plain s); auto].
  destruct a as [c k [|]|k|].
  - injection H as <- <-. apply (invD_plain s); auto; [repeat constructor|cbn; lia].
  - injection H as <- <-. apply (invD_plain s); auto.
  - injection H as <- <-. destruct I as [A1 A2 A3 A4 A5 A6 A7 A8].
    assert (IF : forall id k', In (OFetch id k') (O ++ [OFetch (ct_next s) k]) -> In (OFetch id k') O \/ id = ct_next s /\ k' = k).
    { intros id k' Q. apply in_app_iff in Q as [Q|[Q|[]]]; auto. right. split; congruence. }
    assert (R : forall id, dreports id (O ++ [OFetch (ct_next s) k]) = dreports id O) by (intro; rewrite dreports_app; apply app_nil_r).
    constructor; unfold rids in *; cbn [ct_running ct_set ct_alive ct_next map fst].
    + constructor; auto. intro Q. apply A2 in Q. lia.
    + intros id [<-|Q]; [lia|]. apply A2 in Q. lia.
    + intros id k' [Q|Q]; apply in_app_iff; [right; left; congruence|auto].
    + now rewrite A4.
    + discriminate.
    + intros id k' Q. apply IF in Q as [Q|[-> _]]; [apply A6 in Q; lia|lia].
    + intros id k1 k2 Q1 Q2. apply IF in Q1 as [Q1|[-> ->]], Q2 as [Q2|[E ->]]; subst; eauto; exfalso; [apply A6 in Q1|apply A6 in Q2]; lia.
    + intros id. rewrite R. intro Q. apply A8 in Q. lia.
  - injection H as <- <-. rewrite app_nil_r. destruct I as [A1 A2 A3 A4 A5 A6 A7 A8].
    assert (F : filter (fun x : nat * cbs => negb (existsb (Nat.eqb (fst x)) (ct_set s))) (ct_running s) = []).
    { rewrite A4. unfold rids. assert (G : forall l m : list (nat * cbs), incl l m -> filter (fun x => negb (existsb (Nat.eqb (fst x)) (map fst m))) l = []).
      { induction l as [|x l IH]; intros m L; [reflexivity|]. cbn [filter]. assert (existsb (Nat.eqb (fst x)) (map fst m) = true) as ->. { apply existsb_exists. exists (fst x). split; [apply in_map; apply L; now left|apply Nat.eqb_refl]. } cbn. apply IH. intros y Q. apply L. now right. }
      apply G. apply incl_refl. }
    constructor; unfold rids; cbn [ct_running ct_set ct_alive ct_next]; rewrite ?F; auto; cbn; try constructor; intros; contradiction.
Qed.
Lemma acts_invD : forall l s O s' o, invD s O -> ct_acts l s = (s', o) -> invD s' (O ++ o).
Proof.
  induction l as [|a l IH]; intros s O s' o I H; cbn [ct_acts] in H; [injection H as <- <-; now rewrite app_nil_r|].
  destruct (ct_act a s) as [s1 o1] eqn:E1. destruct (ct_acts l s1) as [s2 o2] eqn:E2. injection H as <- <-. rewrite app_assoc. eapply IH; [|exact E2]. eapply act_invD; eauto.
Qed.
Lemma rids_erase : forall id l, map fst (filter (fun x : nat * cbs => negb (is_id id x)) l) = filter (fun x => negb (Nat.eqb x id)) (map fst l).
Proof. intros id l. induction l as [|x l IH]; [reflexivity|]. cbn. unfold is_id at 1. destruct (negb (Nat.eqb (fst x) id)); cbn; now rewrite IH. Qed.
Lemma erase_invD : forall id s O s' o, invD s O -> ct_erase id s = (s', o) -> invD s' (O ++ o).
Proof.
  intros id s O s' o [A1 A2 A3 A4 A5 A6 A7 A8] H. unfold ct_erase in H. injection H as <- <-.
  assert (IF : forall i k, In (OFetch i k) (O ++ (if ct_alive s then [] else [OUb])) -> In (OFetch i k) O).
  { intros i k Q. apply in_app_iff in Q as [Q|Q]; auto. destruct (ct_alive s); [destruct Q|destruct Q as [Q|[]]; discriminate]. }
  assert (R : forall i, dreports i (O ++ (if ct_alive s then [] else [OUb])) = dreports i O) by (intro; rewrite dreports_app; destruct (ct_alive s); apply app_nil_r).
  constructor; unfold rids; cbn [ct_running ct_set ct_alive ct_next].
  - apply nodup_filter. exact A1.
  - intros i Q. rewrite rids_erase in Q. apply filter_In in Q as [Q _]. auto.
  - intros i k Q. apply filter_In in Q as [Q _]. apply in_app_iff. auto.
  - rewrite rids_erase, A4. destruct (ct_alive s) eqn:AL; [reflexivity|]. unfold rids. now rewrite (A5 eq_refl).
  - intro AL. now rewrite (A5 AL).
  - intros i k Q. apply IF in Q. eauto.
  - intros i k k' Q1 Q2. apply IF in Q1, Q2. eauto.
  - intro i. rewrite R. auto.
Qed.
Lemma emit_invD : forall s O id b r acts t s' o, invD s O -> (b = true -> In id (rids s)) -> ct_emit id b (ODataset id r) acts t s = (s', o) -> invD s' (O ++ o).
Proof.
  intros s O id b r acts t s' o IV J H. unfold ct_emit in H. destruct (ct_call b (ODataset id r) acts s) as [s1 o1] eqn:C.
  assert (I1 : invD s1 (O ++ o1)).
  { unfold ct_call in C. destruct b; [|injection C as <- <-; now rewrite app_nil_r]. destruct (ct_acts acts s) as [s3 o3] eqn:A. injection C as <- <-. change (ODataset id r :: o3) with ([ODataset id r] ++ o3). rewrite app_assoc. eapply acts_invD; [|exact A].
    apply (invD_plain s); auto. constructor; [|constructor]. cbn. apply (d_low _ _ IV). auto. }
  destruct (b && t); [injection H as <- <-; exact I1|]. destruct (ct_erase id s1) as [s2 o2] eqn:E. injection H as <- <-. rewrite app_assoc. eapply erase_invD; eauto.
Qed.
Lemma emit_false : forall id x y acts acts' t t' s, ct_emit id false x acts t s = ct_emit id false y acts' t' s.
Proof. reflexivity. Qed.
Lemma report_D : forall (Q : ctl -> list cout -> Prop) O id k r acts s1 s2 o, Q s1 (O ++ []) -> Q s1 (O ++ [OReport id r]) ->
  (forall s O s' o, Q s O -> ct_acts acts s = (s', o) -> Q s' (O ++ o)) -> ct_report id k r acts s1 = (s2, o) -> Q s2 (O ++ o).
Proof.
  intros Q O id k r acts s1 s2 o Q0 Q1 A H.
  assert (E2 : forall b, ct_call b (OReport id r) acts s1 = (s2, o) -> Q s2 (O ++ o)).
  { intros b X. unfold ct_call in X. destruct b; [|injection X as <- <-; exact Q0]. destruct (ct_acts acts s1) as [s3 o3] eqn:E. injection X as <- <-. change (OReport id r :: o3) with ([OReport id r] ++ o3). rewrite app_assoc. eapply A; eauto. }
  unfold ct_report in H. destruct r; [eapply E2; eauto|eapply E2; eauto|]. injection H as <- <-. exact Q1.
Qed.
Lemma in_rids : forall s id k, In (id, k) (ct_running s) -> In id (rids s).
Proof. intros. unfold rids. apply in_map_iff. exists (id, k). auto. Qed.
Lemma step_invD : forall e s O s' o, invD s O -> ct_step e s = (s', o) -> invD s' (O ++ o).
Proof.
  intros e s O s' o IV H. assert (NOP : invD s (O ++ [])) by (now rewrite app_nil_r).
  assert (P : forall s1 o, ct_running s1 = ct_running s -> ct_set s1 = ct_set s -> ct_alive s1 = ct_alive s -> ct_next s1 = ct_next s -> Forall (dplain (ct_next s1)) o -> invD s1 (O ++ o)) by (intros; apply (invD_plain s); auto; lia).
  destruct e as [a|id ct|id acts t|id acts t|id ok acts t|id ps acts t|id code acts t]; cbn [ct_step] in H.
  - eapply act_invD; eauto.
  - destruct (find _ (ct_pending s)) as [[[i c] k]|] eqn:F; [|injection H as <- <-; exact NOP]. destruct (ct_alive s) eqn:AL; injection H as <- <-; apply P; auto; repeat constructor.
  - destruct (find _ (ct_pending s)) as [[[i c] k]|] eqn:F; [|injection H as <- <-; exact NOP]. eapply (report_D invD); [| | |exact H]; [apply P; auto|apply P; auto; repeat constructor|intros; eapply acts_invD; eauto].
  - destruct (find _ (ct_pending s)) as [[[i c] k]|] eqn:F; [|injection H as <- <-; exact NOP]. eapply (report_D invD); [| | |exact H]; [apply P; auto|apply P; auto; repeat constructor|intros; eapply acts_invD; eauto].
  - destruct (find _ (ct_validating s)) as [[[[i c] k] ct]|] eqn:F; [|injection H as <- <-; exact NOP]. eapply (report_D invD); [| | |exact H]; [apply P; auto|apply P; auto; repeat constructor|intros; eapply acts_invD; eauto].
  - destruct (find _ (ct_running s)) as [[i k]|] eqn:F; [|injection H as <- <-; exact NOP]. apply find_running in F as [-> F]. destruct ps; (eapply emit_invD; [exact IV| |exact H]; intros _; eapply in_rids; eauto).
  - destruct (find _ (ct_running s)) as [[i k]|] eqn:F; [|injection H as <- <-; exact NOP]. apply find_running in F as [-> F]. destruct (ct_errorCode code); [eapply emit_invD; [exact IV| |exact H]; intros _; eapply in_rids; eauto|].
    rewrite (emit_false _ _ (ODataset id None) _ [] _ false) in H. eapply emit_invD; [exact IV| |exact H]. discriminate.
Qed.
Lemma invD_new : invD ct_new [].
Proof. constructor; cbn; try tauto; try (intros; contradiction). constructor. Qed.
Lemma run_invD : forall l s O s' h, invD s O -> ct_run l s = (s', h) -> invD s' (O ++ outs h).
Proof.
  induction l as [|e l IH]; intros s O s' h IV H; cbn [ct_run] in H; [injection H as <- <-; cbn; now rewrite app_nil_r|].
  destruct (ct_step e s) as [s1 o] eqn:E. destruct (ct_run l s1) as [s2 h2] eqn:R. injection H as <- <-. cbn [outs flat_map snd]. rewrite app_assoc. eapply IH; [|exact R]. eapply step_invD; eauto.
Qed.

(* ---- at most one report, when no callback throws; x: the dataset that is being reported ---- *)
Definition invE (x : option nat) (s : ctl) (O : list cout) : Prop :=
  (forall id, (length (dreports id O) <= 1)%nat) /\ (forall id, In id (rids s) -> x <> Some id -> dreports id O = []).
Definition no_ds (o : list cout) : Prop := forall id r, ~ In (ODataset id r) o.
Lemma dreports_none : forall id o, no_ds o -> dreports id o = [].
Proof.
  intros id o H. induction o as [|y o IH]; [reflexivity|]. assert (K : dreports id o = []) by (apply IH; intros i r Q; eapply H; right; eauto).
  destruct y; try exact K. exfalso. eapply H. left. reflexivity.
Qed.
Lemma invE_plain : forall x s s' O o, invE x s O -> no_ds o -> ct_running s' = ct_running s -> invE x s' (O ++ o).
Proof. intros x s s' O o [A B] N E. unfold invE, rids. rewrite E. split; intros; rewrite dreports_app, (dreports_none _ o N), app_nil_r; auto. Qed.
Lemma act_no_ds : forall a s s' o, ct_act a s = (s', o) -> no_ds o.
Proof. intros a s s' o H id r I. apply (act_quiet _ _ _ _ _ H) in I. exact I. Qed.
Lemma acts_no_ds : forall l s s' o, ct_acts l s = (s', o) -> no_ds o.
Proof. intros a s s' o H id r I. apply (acts_quiet _ _ _ _ _ H) in I. exact I. Qed.
Lemma act_invE : forall a x s O s' o, invD s O -> invE x s O -> ct_act a s = (s', o) -> invE x s' (O ++ o).
Proof.
  intros a x s O s' o D E H. pose proof (act_no_ds _ _ _ _ H) as N. destruct E as [A B].
  assert (R : forall id, dreports id (O ++ o) = dreports id O) by (intro; rewrite dreports_app, (dreports_none _ o N); apply app_nil_r).
  split; intros id; [now rewrite R|]. intros I X. rewrite R. unfold ct_act in H. destruct (negb (ct_alive s)); [injection H as <- <-; auto|]. destruct a as [c k [|]|k|]; injection H as <- <-; try (apply B; auto; fail).
  - destruct I as [<-|I]; [|apply B; auto]. cbn. destruct (dreports (ct_next s) O) eqn:Z; auto. exfalso. assert (ct_next s < ct_next s)%nat; [|lia]. apply (d_rlow _ _ D). congruence.
  - apply B; auto. unfold rids in I. cbn [ct_running] in I. apply in_map_iff in I as (y & <- & I). apply filter_In in I as [I _]. unfold rids. apply in_map. exact I.
Qed.
Lemma acts_invE : forall l x s O s' o, invD s O -> invE x s O -> ct_acts l s = (s', o) -> invE x s' (O ++ o).
Proof.
  induction l as [|a l IH]; intros x s O s' o D E H; cbn [ct_acts] in H; [injection H as <- <-; now rewrite app_nil_r|].
  destruct (ct_act a s) as [s1 o1] eqn:E1. destruct (ct_acts l s1) as [s2 o2] eqn:E2. injection H as <- <-. rewrite app_assoc. eapply IH; [eapply act_invD; eauto|eapply act_invE; eauto|exact E2].
Qed.
Lemma erase_invE : forall id s O s' o, invE (Some id) s O -> ct_erase id s = (s', o) -> invE None s' (O ++ o).
Proof.
  intros id s O s' o [A B] H. unfold ct_erase in H. injection H as <- <-.
  assert (R : forall i, dreports i (O ++ (if ct_alive s then [] else [OUb])) = dreports i O) by (intro; rewrite dreports_app; destruct (ct_alive s); apply app_nil_r).
  split; intro i; rewrite R; auto. intros I _. unfold rids in I. cbn [ct_running] in I. rewrite rids_erase in I. apply filter_In in I as [I N]. apply B; auto. intro X. injection X as <-. rewrite Nat.eqb_refl in N. discriminate.
Qed.
Lemma emit_invE : forall s O id b r acts s' o, invD s O -> invE None s O -> In id (rids s) -> ct_emit id b (ODataset id r) acts false s = (s', o) -> invE None s' (O ++ o).
Proof.
  intros s O id b r acts s' o D E J H. unfold ct_emit in H. rewrite andb_false_r in H. destruct (ct_call b (ODataset id r) acts s) as [s1 o1] eqn:C. destruct (ct_erase id s1) as [s2 o2] eqn:X. injection H as <- <-. rewrite app_assoc. eapply erase_invE; [|exact X].
  destruct E as [A B]. unfold ct_call in C. destruct b.
  - destruct (ct_acts acts s) as [s3 o3] eqn:A3. injection C as <- <-. change (ODataset id r :: o3) with ([ODataset id r] ++ o3). rewrite app_assoc. eapply acts_invE; [| |exact A3].
    + apply (invD_plain s); auto. constructor; [|constructor]. cbn. apply (d_low _ _ D). exact J.
    + split; intro i; rewrite dreports_app; cbn; destruct (Nat.eqb_spec id i) as [<-|N].
      * rewrite B by (auto; discriminate). cbn. lia.
      * rewrite app_nil_r. apply A.
      * intros _ Q. congruence.
      * intros I _. rewrite app_nil_r. apply B; auto; discriminate.
  - injection C as <- <-. rewrite app_nil_r. split; auto. intros i I _. apply B; auto. discriminate.
Qed.
Lemma step_invE : forall e s O s' o, invD s O -> invE None s O -> calm e -> ct_step e s = (s', o) -> invE None s' (O ++ o).
Proof.
  intros e s O s' o D IV CA H. assert (NOP : invE None s (O ++ [])) by (now rewrite app_nil_r).
  assert (NR : forall i r, no_ds [OReport i r]) by (intros i r j q [Q|[]]; discriminate). assert (N0 : no_ds []) by (intros j q []).
  assert (REP : forall id k r acts s1, ct_running s1 = ct_running s -> ct_set s1 = ct_set s -> ct_alive s1 = ct_alive s -> ct_next s1 = ct_next s -> ct_report id k r acts s1 = (s', o) -> invE None s' (O ++ o)).
  { intros id k r acts s1 E1 E2 E3 E4 X. eapply (report_D (fun s O => invD s O /\ invE None s O)); [| | |exact X].
    - split; [apply (invD_plain s); auto; lia|eapply invE_plain; eauto].
    - split; [apply (invD_plain s); auto; [repeat constructor|lia]|eapply invE_plain; eauto].
    - intros sa Oa sb ob [Q1 Q2] A. split; [eapply acts_invD; eauto|eapply acts_invE; eauto]. }
  destruct e as [a|id ct|id acts t|id acts t|id ok acts t|id ps acts t|id code acts t]; cbn [ct_step] in H.
  - eapply act_invE; eauto.
  - destruct (find _ (ct_pending s)) as [[[i c] k]|] eqn:F; [|injection H as <- <-; exact NOP]. destruct (ct_alive s) eqn:AL; injection H as <- <-; (eapply invE_plain; [exact IV| |reflexivity]; intros j q [Q|[]]; discriminate).
  - destruct (find _ (ct_pending s)) as [[[i c] k]|] eqn:F; [|injection H as <- <-; exact NOP]. eapply REP; [| | | |exact H]; reflexivity.
  - destruct (find _ (ct_pending s)) as [[[i c] k]|] eqn:F; [|injection H as <- <-; exact NOP]. eapply REP; [| | | |exact H]; reflexivity.
  - destruct (find _ (ct_validating s)) as [[[[i c] k] ct]|] eqn:F; [|injection H as <- <-; exact NOP]. eapply REP; [| | | |exact H]; reflexivity.
  - cbn in CA. subst t. destruct (find _ (ct_running s)) as [[i k]|] eqn:F; [|injection H as <- <-; exact NOP]. apply find_running in F as [-> F]. apply in_rids in F. destruct ps; eapply emit_invE; eauto.
  - cbn in CA. subst t. destruct (find _ (ct_running s)) as [[i k]|] eqn:F; [|injection H as <- <-; exact NOP]. apply find_running in F as [-> F]. apply in_rids in F. destruct (ct_errorCode code); [eapply emit_invE; eauto|].
    rewrite (emit_false _ _ (ODataset id None) _ [] _ false) in H. eapply emit_invE; eauto.
Qed.
Lemma run_invE : forall l s O s' h, invD s O -> invE None s O -> Forall calm l -> ct_run l s = (s', h) -> invE None s' (O ++ outs h).
Proof.
  induction l as [|e l IH]; intros s O s' h D IV CA H; cbn [ct_run] in H; [injection H as <- <-; cbn; now rewrite app_nil_r|]. apply Forall_cons_iff in CA as [C1 CA].
  destruct (ct_step e s) as [s1 o] eqn:E. destruct (ct_run l s1) as [s2 h2] eqn:R. injection H as <- <-. cbn [outs flat_map snd]. rewrite app_assoc. eapply IH; [| |exact CA|exact R]; [eapply step_invD; eauto|eapply step_invE; eauto].
Qed.

(* ---- no dataset is lost; x: the dataset that has ended ---- *)
Definition invF (s : ctl) (O : list cout) : Prop := forall id k, In (OFetch id k) O -> cb_success k = true -> cb_failure k = true -> ct_alive s = true -> In id (rids s) \/ dreports id O <> [].
Lemma more_reports : forall id O o, dreports id O <> [] -> dreports id (O ++ o) <> [].
Proof. intros id O o H E. rewrite dreports_app in E. apply app_eq_nil in E as [E _]. auto. Qed.
Lemma invF_plain : forall s s' O o, invF s O -> (forall id k, ~ In (OFetch id k) o) -> (forall id, In id (rids s) -> In id (rids s')) -> (ct_alive s' = true -> ct_alive s = true) -> invF s' (O ++ o).
Proof.
  intros s s' O o A N I L id k Q B1 B2 AL. apply in_app_iff in Q as [Q|Q]; [|now apply N in Q]. destruct (A id k Q B1 B2 (L AL)); [auto|right; now apply more_reports].
Qed.
Lemma act_invF : forall a s O s' o, invF s O -> ct_act a s = (s', o) -> invF s' (O ++ o).
Proof.
  intros a s O s' o A H. unfold ct_act in H. destruct (ct_alive s) eqn:AL; cbn [negb] in H; [|injection H as <- <-; now rewrite app_nil_r].
  destruct a as [c k [|]|k|]; injection H as <- <-.
  - apply (invF_plain s); auto. intros id k0 [Q|[]]. discriminate.
  - now rewrite app_nil_r.
  - intros id k0 Q B1 B2 _. apply in_app_iff in Q as [Q|[Q|[]]]; [|left; left; cbn; congruence]. destruct (A id k0 Q B1 B2 AL); [left; right; auto|right; now apply more_reports].
  - intros id k0 Q B1 B2 X. discriminate.
Qed.
Lemma acts_invF : forall l s O s' o, invF s O -> ct_acts l s = (s', o) -> invF s' (O ++ o).
Proof.
  induction l as [|a l IH]; intros s O s' o I H; cbn [ct_acts] in H; [injection H as <- <-; now rewrite app_nil_r|].
  destruct (ct_act a s) as [s1 o1] eqn:E1. destruct (ct_acts l s1) as [s2 o2] eqn:E2. injection H as <- <-. rewrite app_assoc. eapply IH; [|exact E2]. eapply act_invF; eauto.
Qed.
Lemma erase_invF : forall id s O s' o, invF s O -> dreports id O <> [] \/ (forall k, In (OFetch id k) O -> cb_success k = false \/ cb_failure k = false) -> ct_erase id s = (s', o) -> invF s' (O ++ o).
Proof.
  intros id s O s' o A R H. unfold ct_erase in H. injection H as <- <-. intros i k Q B1 B2 AL. cbn in AL.
  apply in_app_iff in Q as [Q|Q]; [|rewrite AL in Q; destruct Q]. destruct (A i k Q B1 B2 AL) as [I|I]; [|right; now apply more_reports].
  destruct (Nat.eq_dec i id) as [->|N].
  - destruct R as [R|R]; [right; now apply more_reports|]. destruct (R k Q); congruence.
  - left. unfold rids. cbn [ct_running]. rewrite rids_erase. apply filter_In. split; auto. destruct (Nat.eqb_spec i id); [contradiction|reflexivity].
Qed.
Lemma emit_invF : forall s O id k b r acts t s' o, invD s O -> invF s O -> In (id, k) (ct_running s) -> (b = false -> cb_success k = false \/ cb_failure k = false) -> ct_emit id b (ODataset id r) acts t s = (s', o) -> invF s' (O ++ o).
Proof.
  intros s O id k b r acts t s' o D A J K H. unfold ct_emit in H. destruct (ct_call b (ODataset id r) acts s) as [s1 o1] eqn:C.
  assert (I1 : invF s1 (O ++ o1) /\ (dreports id (O ++ o1) <> [] \/ (forall k, In (OFetch id k) (O ++ o1) -> cb_success k = false \/ cb_failure k = false))).
  { unfold ct_call in C. destruct b.
    - destruct (ct_acts acts s) as [s3 o3] eqn:A3. injection C as <- <-. change (ODataset id r :: o3) with ([ODataset id r] ++ o3). rewrite app_assoc. split.
      + eapply acts_invF; [|exact A3]. apply (invF_plain s); auto. intros i k0 [Q|[]]. discriminate.
      + left. apply more_reports. rewrite dreports_app. cbn. rewrite Nat.eqb_refl. destruct (dreports id O); discriminate.
    - injection C as <- <-. rewrite app_nil_r. split; auto. right. intros k0 Q. rewrite (d_funiq _ _ D _ _ _ Q (d_run _ _ D _ _ J)). auto. }
  destruct I1 as [I1 I2]. destruct (b && t); [injection H as <- <-; exact I1|]. destruct (ct_erase id s1) as [s2 o2] eqn:E. injection H as <- <-. rewrite app_assoc. eapply erase_invF; eauto.
Qed.
Lemma errorCode_iff : forall code, ct_errorCode code = if (1 <=? code) && (code <=? 5) then dataset_code code else None.
Proof.
  intro code. unfold ct_errorCode. destruct (N.eqb_spec code 1) as [->|]; [reflexivity|]. destruct (N.eqb_spec code 2) as [->|]; [reflexivity|]. destruct (N.eqb_spec code 5) as [->|]; [reflexivity|].
  destruct (N.eqb_spec code 3) as [->|]; [reflexivity|]. destruct (N.eqb_spec code 4) as [->|]; [reflexivity|]. cbn [orb]. destruct (N.leb_spec 1 code); destruct (N.leb_spec code 5); cbn; auto. lia.
Qed.
Lemma known_code : forall code, 1 <= code <= 5 -> exists x, ct_errorCode code = Some x /\ dataset_code code = Some x.
Proof.
  intros code [L1 L2]. assert (code = 1 \/ code = 2 \/ code = 3 \/ code = 4 \/ code = 5) as Q by lia. destruct Q as [->|[->|[->|[->| ->]]]]; eexists; split; reflexivity.
Qed.
Lemma step_invF : forall e s O s' o, invD s O -> invF s O -> known e -> ct_step e s = (s', o) -> invF s' (O ++ o).
Proof.
  intros e s O s' o D IV KN H. assert (NOP : invF s (O ++ [])) by (now rewrite app_nil_r).
  assert (REP : forall id k r acts s1, ct_running s1 = ct_running s -> ct_alive s1 = ct_alive s -> ct_report id k r acts s1 = (s', o) -> invF s' (O ++ o)).
  { intros id k r acts s1 E1 E3 X. assert (RI : rids s1 = rids s) by (unfold rids; now rewrite E1). eapply (report_D invF); [| | |exact X].
    - apply (invF_plain s); auto; rewrite ?RI, ?E3; auto.
    - apply (invF_plain s); auto; rewrite ?RI, ?E3; auto. intros i k0 [Q|[]]; discriminate.
    - intros; eapply acts_invF; eauto. }
  destruct e as [a|id ct|id acts t|id acts t|id ok acts t|id ps acts t|id code acts t]; cbn [ct_step] in H.
  - eapply act_invF; eauto.
  - destruct (find _ (ct_pending s)) as [[[i c] k]|] eqn:F; [|injection H as <- <-; exact NOP]. destruct (ct_alive s) eqn:AL; injection H as <- <-; (apply (invF_plain s); [exact IV| |auto|auto]; intros j q [Q|[]]; discriminate).
  - destruct (find _ (ct_pending s)) as [[[i c] k]|] eqn:F; [|injection H as <- <-; exact NOP]. eapply REP; [| |exact H]; reflexivity.
  - destruct (find _ (ct_pending s)) as [[[i c] k]|] eqn:F; [|injection H as <- <-; exact NOP]. eapply REP; [| |exact H]; reflexivity.
  - destruct (find _ (ct_validating s)) as [[[[i c] k] ct]|] eqn:F; [|injection H as <- <-; exact NOP]. eapply REP; [| |exact H]; reflexivity.
  - destruct (find _ (ct_running s)) as [[i k]|] eqn:F; [|injection H as <- <-; exact NOP]. apply find_running in F as [-> F]. destruct ps; (eapply emit_invF; [exact D|exact IV|exact F| |exact H]); auto.
  - destruct (find _ (ct_running s)) as [[i k]|] eqn:F; [|injection H as <- <-; exact NOP]. apply find_running in F as [-> F]. destruct (known_code code KN) as (x & E & _). rewrite E in H. (eapply emit_invF; [exact D|exact IV|exact F| |exact H]); auto.
Qed.
Lemma run_invF : forall l s O s' h, invD s O -> invF s O -> Forall known l -> ct_run l s = (s', h) -> invF s' (O ++ outs h).
Proof.
  induction l as [|e l IH]; intros s O s' h D IV CA H; cbn [ct_run] in H; [injection H as <- <-; cbn; now rewrite app_nil_r|]. apply Forall_cons_iff in CA as [C1 CA].
  destruct (ct_step e s) as [s1 o] eqn:E. destruct (ct_run l s1) as [s2 h2] eqn:R. injection H as <- <-. cbn [outs flat_map snd]. rewrite app_assoc. eapply IH; [| |exact CA|exact R]; [eapply step_invD; eauto|eapply step_invF; eauto].
Qed.

(* ---- destruction ---- *)
Lemma acts_alive : forall l s s' o, ct_acts l s = (s', o) -> (ct_alive s = false -> s' = s /\ o = []) /\ (~ In ADestroy l -> ct_alive s' = ct_alive s).
Proof.
  induction l as [|a l IH]; intros s s' o H; cbn [ct_acts] in H; [injection H as <- <-; auto|].
  destruct (ct_act a s) as [s1 o1] eqn:E1. destruct (ct_acts l s1) as [s2 o2] eqn:E2. injection H as <- <-. destruct (IH _ _ _ E2) as [I1 I2]. unfold ct_act in E1. split.
  - intro AL. rewrite AL in E1. cbn in E1. injection E1 as <- <-. destruct (I1 AL) as [-> ->]. auto.
  - intro N. rewrite I2 by (intro Q; apply N; now right). destruct (ct_alive s) eqn:AL; cbn [negb] in E1; [|injection E1 as <- <-; auto]. destruct a as [c k [|]|k|]; injection E1 as <- <-; auto. exfalso. apply N. now left.
Qed.
Lemma call_dead : forall b x acts s s' o, ct_alive s = false -> ct_call b x acts s = (s', o) -> s' = s /\ o = if b then [x] else [].
Proof. intros b x acts s s' o AL H. unfold ct_call in H. destruct b; [|injection H as <- <-; auto]. destruct (ct_acts acts s) as [s1 o1] eqn:A. destruct (acts_alive _ _ _ _ A) as [D _]. destruct (D AL) as [-> ->]. injection H as <- <-. auto. Qed.
Lemma step_dead : forall e s s' o, ct_alive s = false -> ct_running s = [] -> ct_step e s = (s', o) -> ct_alive s' = false /\ ct_running s' = [] /\ forall x, In x o -> match x with OReport _ _ | OUb => True | _ => False end.
Proof.
  intros e s s' o AL RN H.
  assert (REP : forall id k r acts s1, ct_alive s1 = false -> ct_running s1 = [] -> ct_report id k r acts s1 = (s', o) -> ct_alive s' = false /\ ct_running s' = [] /\ forall x, In x o -> match x with OReport _ _ | OUb => True | _ => False end).
  { intros id k r acts s1 A1 R1 X. unfold ct_report in X. destruct r.
    - apply call_dead in X as [-> ->]; auto. splits; auto. intros x I. destruct (cb_success k); [destruct I as [<-|[]]; exact Logic.I|destruct I].
    - apply call_dead in X as [-> ->]; auto. splits; auto. intros x I. destruct (cb_failure k); [destruct I as [<-|[]]; exact Logic.I|destruct I].
    - injection X as <- <-. splits; auto. intros y [<-|[]]. exact Logic.I. }
  destruct e as [a|id ct|id acts t|id acts t|id ok acts t|id ps acts t|id code acts t]; cbn [ct_step] in H.
  - unfold ct_act in H. rewrite AL in H. injection H as <- <-. splits; auto. intros x [].
  - destruct (find _ (ct_pending s)) as [[[i c] k]|] eqn:F; [|injection H as <- <-; splits; auto; intros x []]. rewrite AL in H. injection H as <- <-. split; [exact AL|]. split; [exact RN|]. intros x [<-|[]]. exact Logic.I.
  - destruct (find _ (ct_pending s)) as [[[i c] k]|] eqn:F; [|injection H as <- <-; splits; auto; intros x []]. eapply REP; [| |exact H]; [exact AL|exact RN].
  - destruct (find _ (ct_pending s)) as [[[i c] k]|] eqn:F; [|injection H as <- <-; splits; auto; intros x []]. eapply REP; [| |exact H]; [exact AL|exact RN].
  - destruct (find _ (ct_validating s)) as [[[[i c] k] ct]|] eqn:F; [|injection H as <- <-; splits; auto; intros x []]. eapply REP; [| |exact H]; [exact AL|exact RN].
  - rewrite RN in H. cbn in H. injection H as <- <-. splits; auto. intros x [].
  - rewrite RN in H. cbn in H. injection H as <- <-. splits; auto. intros x [].
Qed.
Lemma run_dead : forall l s s' h, ct_alive s = false -> ct_running s = [] -> ct_run l s = (s', h) -> ct_alive s' = false /\ forall x, In x (outs h) -> match x with OReport _ _ | OUb => True | _ => False end.
Proof.
  induction l as [|e l IH]; intros s s' h AL RN H; cbn [ct_run] in H; [injection H as <- <-; split; auto; intros x []|].
  destruct (ct_step e s) as [s1 o] eqn:E. destruct (ct_run l s1) as [s2 h2] eqn:R. injection H as <- <-. destruct (step_dead _ _ _ _ AL RN E) as (A1 & R1 & X1). destruct (IH _ _ _ A1 R1 R) as [A2 X2]. split; auto.
  intros x I. cbn [outs flat_map snd] in I. apply in_app_iff in I as [I|I]; [exact (X1 x I)|exact (X2 x I)].
Qed.

(* ---- what is reported ---- *)
Lemma call_in : forall b x acts s s' o y, ct_call b x acts s = (s', o) -> In y o -> (b = true /\ y = x) \/ match y with OSend _ _ _ | OFetch _ _ => True | _ => False end.
Proof. intros b x acts s s' o y H I. unfold ct_call in H. destruct b; [|injection H as <- <-; destruct I]. destruct (ct_acts acts s) as [s1 o1] eqn:A. injection H as <- <-. destruct I as [<-|I]; [auto|]. right. eapply acts_quiet; eauto. Qed.
Lemma report_in : forall id k r acts s s' o y, ct_report id k r acts s = (s', o) -> In y o -> (forall x, r <> CThrow x) -> (y = OReport id r /\ goes_to k r) \/ match y with OSend _ _ _ | OFetch _ _ => True | _ => False end.
Proof.
  intros id k r acts s s' o y H I N. unfold ct_report in H. destruct r; [| |exfalso; eapply N; eauto]; (destruct (call_in _ _ _ _ _ _ _ H I) as [[B ->]|Q]; [left; split; auto; exact B|auto]).
Qed.
Lemma emit_in : forall id b x acts t s s' o y, ct_emit id b x acts t s = (s', o) -> In y o -> (b = true /\ y = x) \/ match y with OSend _ _ _ | OFetch _ _ => True | OUb => exists s1 o1, ct_call b x acts s = (s1, o1) /\ ct_alive s1 = false | _ => False end.
Proof.
  intros id b x acts t s s' o y H I. unfold ct_emit in H. destruct (ct_call b x acts s) as [s1 o1] eqn:C.
  assert (K : In y o1 -> (b = true /\ y = x) \/ match y with OSend _ _ _ | OFetch _ _ => True | OUb => exists s2 o2, (s1, o1) = (s2, o2) /\ ct_alive s2 = false | _ => False end).
  { intro J. destruct (call_in _ _ _ _ _ _ _ C J) as [Q|Q]; [auto|]. destruct y; auto; contradiction. }
  destruct (b && t); [injection H as <- <-; auto|]. unfold ct_erase in H. injection H as <- <-. apply in_app_iff in I as [I|I]; [auto|]. destruct (ct_alive s1) eqn:A; [destruct I|]. destruct I as [<-|[]]. right. eauto.
Qed.
Lemma step_report : forall e s O s' o id r, invC s O -> ct_step e s = (s', o) -> In (OReport id r) o ->
  exists c k, In (OSend id c k) O /\ goes_to k r /\ match e with
  | EvNack i _ _ => i = id /\ r = CFail 10800 None
  | EvTimeout i _ _ => i = id /\ r = CFail 10060 None
  | EvValidated i true _ _ => i = id /\ exists content, In (OValidate id content) O /\ r = ct_response c content
  | EvValidated i false _ _ => i = id /\ r = CFail 10021 None
  | _ => False
  end.
Proof.
  intros e s O s' o id r IV H I. destruct e as [a|i ct|i acts t|i acts t|i ok acts t|i ps acts t|i code acts t]; cbn [ct_step] in H.
  - apply (act_quiet _ _ _ _ _ H) in I. contradiction.
  - destruct (find _ (ct_pending s)) as [[[i' c] k]|] eqn:F; [|injection H as <- <-; destruct I]. destruct (ct_alive s); injection H as <- <-; destruct I as [I|[]]; discriminate.
  - destruct (find _ (ct_pending s)) as [[[i' c] k]|] eqn:F; [|injection H as <- <-; destruct I]. apply find_pending in F as [-> F]. destruct (report_in _ _ _ _ _ _ _ _ H I ltac:(discriminate)) as [[E G]|[]]. injection E as -> ->. exists c, k. destruct (c_pend _ _ IV _ _ _ F). splits; auto.
  - destruct (find _ (ct_pending s)) as [[[i' c] k]|] eqn:F; [|injection H as <- <-; destruct I]. apply find_pending in F as [-> F]. destruct (report_in _ _ _ _ _ _ _ _ H I ltac:(discriminate)) as [[E G]|[]]. injection E as -> ->. exists c, k. destruct (c_pend _ _ IV _ _ _ F). splits; auto.
  - destruct (find _ (ct_validating s)) as [[[[i' c] k] ct]|] eqn:F; [|injection H as <- <-; destruct I]. apply find_validating in F as [-> F]. destruct (c_val _ _ IV _ _ _ _ F) as [S1 S2].
    destruct (report_in _ _ _ _ _ _ _ _ H I) as [[E G]|[]]; [destruct ok; [intro x; apply response_no_throw|discriminate]|]. injection E as -> ->. exists c, k. splits; auto. destruct ok; split; auto. exists ct. auto.
  - destruct (find _ (ct_running s)) as [[i' k]|] eqn:F; [|injection H as <- <-; destruct I]. destruct ps; destruct (emit_in _ _ _ _ _ _ _ _ _ H I) as [[_ Q]|Q]; try discriminate; contradiction.
  - destruct (find _ (ct_running s)) as [[i' k]|] eqn:F; [|injection H as <- <-; destruct I]. destruct (ct_errorCode code); destruct (emit_in _ _ _ _ _ _ _ _ _ H I) as [[_ Q]|Q]; try discriminate; contradiction.
Qed.
Lemma step_dataset : forall e s O s' o id r, invD s O -> ct_step e s = (s', o) -> In (ODataset id r) o -> exists k, In (OFetch id k) O /\ dgoes_to k r /\ danswers e id r.
Proof.
  intros e s O s' o id r IV H I. destruct e as [a|i ct|i acts t|i acts t|i ok acts t|i ps acts t|i code acts t]; cbn [ct_step] in H.
  - apply (act_quiet _ _ _ _ _ H) in I. contradiction.
  - destruct (find _ (ct_pending s)) as [[[i' c] k]|] eqn:F; [|injection H as <- <-; destruct I]. destruct (ct_alive s); injection H as <- <-; destruct I as [I|[]]; discriminate.
  - destruct (find _ (ct_pending s)) as [[[i' c] k]|] eqn:F; [|injection H as <- <-; destruct I]. destruct (report_in _ _ _ _ _ _ _ _ H I ltac:(discriminate)) as [[E G]|[]]. discriminate.
  - destruct (find _ (ct_pending s)) as [[[i' c] k]|] eqn:F; [|injection H as <- <-; destruct I]. destruct (report_in _ _ _ _ _ _ _ _ H I ltac:(discriminate)) as [[E G]|[]]. discriminate.
  - destruct (find _ (ct_validating s)) as [[[[i' c] k] ct]|] eqn:F; [|injection H as <- <-; destruct I].
    destruct (report_in _ _ _ _ _ _ _ _ H I) as [[E G]|[]]; [destruct ok; [intro x; apply response_no_throw|discriminate]|]. discriminate.
  - destruct (find _ (ct_running s)) as [[i' k]|] eqn:F; [|injection H as <- <-; destruct I]. apply find_running in F as [-> F]. apply (d_run _ _ IV) in F.
    destruct ps; destruct (emit_in _ _ _ _ _ _ _ _ _ H I) as [[B Q]|Q]; try contradiction; injection Q as -> ->; exists k; splits; auto; split; reflexivity.
  - destruct (find _ (ct_running s)) as [[i' k]|] eqn:F; [|injection H as <- <-; destruct I]. apply find_running in F as [-> F]. apply (d_run _ _ IV) in F. pose proof (errorCode_iff code) as EC.
    destruct (ct_errorCode code) as [x|]; destruct (emit_in _ _ _ _ _ _ _ _ _ H I) as [[B Q]|Q]; try contradiction; try discriminate. injection Q as -> ->. exists k. splits; auto.
    destruct (N.leb_spec 1 code); destruct (N.leb_spec code 5); cbn in EC; try discriminate. split; auto.
Qed.
Lemma step_defined : forall e s O s' o, invD s O -> ct_step e s = (s', o) -> outside e -> (forall id ct, e = EvData id ct -> ct_alive s = true) -> ~ In OUb o.
Proof.
  intros e s O s' o IV H OU DA I. destruct e as [a|i ct|i acts t|i acts t|i ok acts t|i ps acts t|i code acts t]; cbn [ct_step] in H.
  - apply (act_quiet _ _ _ _ _ H) in I. contradiction.
  - rewrite (DA _ _ eq_refl) in H. destruct (find _ (ct_pending s)) as [[[i' c] k]|] eqn:F; injection H as <- <-; [destruct I as [I|[]]; discriminate|destruct I].
  - destruct (find _ (ct_pending s)) as [[[i' c] k]|] eqn:F; [|injection H as <- <-; destruct I]. destruct (report_in _ _ _ _ _ _ _ _ H I ltac:(discriminate)) as [[E G]|[]]. discriminate.
  - destruct (find _ (ct_pending s)) as [[[i' c] k]|] eqn:F; [|injection H as <- <-; destruct I]. destruct (report_in _ _ _ _ _ _ _ _ H I ltac:(discriminate)) as [[E G]|[]]. discriminate.
  - destruct (find _ (ct_validating s)) as [[[[i' c] k] ct]|] eqn:F; [|injection H as <- <-; destruct I].
    destruct (report_in _ _ _ _ _ _ _ _ H I) as [[E G]|[]]; [destruct ok; [intro x; apply response_no_throw|discriminate]|]. discriminate.
  - destruct (find _ (ct_running s)) as [[i' k]|] eqn:F; [|injection H as <- <-; destruct I]. apply find_running in F as [-> F].
    assert (AL : ct_alive s = true) by (destruct (ct_alive s) eqn:A; auto; rewrite (d_dead _ _ IV A) in F; destruct F).
    assert (K : forall b x s1 o1, ct_call b x acts s = (s1, o1) -> ct_alive s1 = true). { intros b x s1 o1 C. unfold ct_call in C. destruct b; [|injection C as <- <-; auto]. destruct (ct_acts acts s) as [s2 o2] eqn:A. injection C as <- <-. destruct (acts_alive _ _ _ _ A) as [_ Z]. rewrite Z; auto. }
    destruct ps; destruct (emit_in _ _ _ _ _ _ _ _ _ H I) as [[B Q]|(s1 & o1 & C & Q)]; try discriminate; rewrite (K _ _ _ _ C) in Q; discriminate.
  - destruct (find _ (ct_running s)) as [[i' k]|] eqn:F; [|injection H as <- <-; destruct I]. apply find_running in F as [-> F].
    assert (AL : ct_alive s = true) by (destruct (ct_alive s) eqn:A; auto; rewrite (d_dead _ _ IV A) in F; destruct F).
    assert (K : forall b x s1 o1, ct_call b x acts s = (s1, o1) -> ct_alive s1 = true). { intros b x s1 o1 C. unfold ct_call in C. destruct b; [|injection C as <- <-; auto]. destruct (ct_acts acts s) as [s2 o2] eqn:A. injection C as <- <-. destruct (acts_alive _ _ _ _ A) as [_ Z]. rewrite Z; auto. }
    destruct (ct_errorCode code); destruct (emit_in _ _ _ _ _ _ _ _ _ H I) as [[B Q]|(s1 & o1 & C & Q)]; try discriminate; [rewrite (K _ _ _ _ C) in Q; discriminate|]. cbn in C. injection C as <- <-. congruence.
Qed.

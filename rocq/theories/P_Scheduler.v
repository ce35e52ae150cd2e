From Coq Require Import Lia ZifyBool ZifyNat ZArith Sorted Permutation.
From Verif Require Import Base BaseLemmas M_Scheduler S_Scheduler.
Open Scope Z_scope.

Definition evk (e : sev) : nat * Z := (ev_id e, ev_exp e).
Definition lexs (a b : sev) : Prop := sooner (evk a) (evk b).

Lemma insert_sorted : forall e q, StronglySorted lexs q -> (forall x, In x q -> (ev_id x < ev_id e)%nat) -> StronglySorted lexs (ev_insert e q).
Proof.
  induction q as [|x q IH]; intros H L; cbn; [repeat constructor|].
  apply StronglySorted_inv in H as [H F]. destruct (ev_exp e <? ev_exp x) eqn:E.
  - constructor; [constructor; auto|]. constructor; [left; cbn; lia|].
    rewrite Forall_forall in *. intros y Hy. specialize (F y Hy). unfold lexs, sooner in *. cbn in *. lia.
  - constructor; [apply IH; auto; intros; apply L; now right|].
    apply Forall_forall. intros y Hy. assert (In y (e :: q)).
    { clear - Hy. induction q as [|z q IH]; cbn in *; [tauto|]. destruct (ev_exp e <? ev_exp z); cbn in *; intuition. }
    destruct H0 as [<- |H0].
    + specialize (L x (or_introl eq_refl)). unfold lexs, sooner. cbn. lia.
    + rewrite Forall_forall in F. auto.
Qed.
Lemma insert_in : forall e q x, In x (ev_insert e q) <-> x = e \/ In x q.
Proof.
  induction q as [|z q IH]; intro x; cbn; [intuition|]. destruct (ev_exp e <? ev_exp z); cbn; [intuition|]. rewrite IH. intuition.
Qed.
Lemma erase_sorted : forall i q, StronglySorted lexs q -> StronglySorted lexs (ev_erase i q).
Proof.
  induction q as [|x q IH]; intro H; cbn; [constructor|]. apply StronglySorted_inv in H as [H F].
  destruct (negb _); auto. constructor; auto. rewrite Forall_forall in *. intros y Hy. apply filter_In in Hy. apply F, Hy.
Qed.
Lemma sorted_nodup : forall q, StronglySorted lexs q -> (forall x y, In x q -> In y q -> ev_id x = ev_id y -> x = y) -> NoDup (map ev_id q).
Proof.
  induction q as [|x q IH]; intros H U; cbn; constructor.
  - intro I. apply in_map_iff in I as (y & E & I). apply StronglySorted_inv in H as [_ F]. rewrite Forall_forall in F. specialize (F y I).
    assert (y = x) by (apply U; cbn; auto). subst. unfold lexs, sooner in F. lia.
  - apply StronglySorted_inv in H as [H _]. apply IH; auto. intros. apply U; cbn; auto.
Qed.

(* the queue holds the pending events, sorted; identifiers are fresh; the timer is set if idle *)
Definition sc_inv (s : sched) (l : list sobs) : Prop :=
  StronglySorted lexs (sc_queue s) /\ (forall e, In e (sc_queue s) <-> In (evk e) (pend l)) /\
  NoDup (map fst (pend l)) /\
  (forall i, In i (scheds l) -> (i < sc_next s)%nat) /\ (forall e, In e (pend l) -> In (fst e) (scheds l)) /\
  (sc_exec s = false <-> sc_loop s = None) /\
  (forall e q, sc_loop s = None -> sc_queue s = e :: q -> (0 < sc_ready s)%nat \/ exists t, sc_wait s = Some t /\ t <= ev_exp e) /\
  (forall n b, sc_loop s = Some (n, b) -> n <= sc_now s).

Lemma pend_app : forall l o, pend (l ++ [o]) = pend1 (pend l) o.
Proof. intros. unfold pend. now rewrite fold_left_app. Qed.
Lemma scheds_app : forall a b, scheds (a ++ b) = scheds a ++ scheds b.
Proof. intros. unfold scheds. now rewrite flat_map_app. Qed.

Lemma mem_in : forall i q, ev_mem i q = true <-> exists e, In e q /\ ev_id e = i.
Proof.
  intros. unfold ev_mem. rewrite existsb_exists. split; intros (e & H1 & H2); exists e; split; auto; [now apply Nat.eqb_eq|now apply Nat.eqb_eq].
Qed.
Lemma erase_none : forall i q, ev_mem i q = false -> ev_erase i q = q.
Proof.
  induction q as [|x q IH]; auto. cbn. destruct (Nat.eqb (ev_id x) i); [discriminate|]. cbn. intro H. f_equal. now apply IH.
Qed.

(* what is observed to run: the soonest pending event, not before its expiry *)
Definition obs_ok (l : list sobs) (o : sobs) : Prop :=
  match o with
  | ORun i t => exists x, In (i, x) (pend l) /\ x <= t /\ forall e, In e (pend l) -> e <> (i, x) -> sooner (i, x) e
  | OSched i _ => ~ In i (scheds l)
  | _ => True
  end.

Lemma leave_wait : forall s e q, sc_queue (sc_leave s) = e :: q -> sc_wait (sc_leave s) = Some (ev_exp e).
Proof. intros s e q. unfold sc_leave, sc_scheduleNext. cbn. destruct (sc_queue s); cbn; [intros [=]|]. now intros [= -> ->]. Qed.
Lemma leave_proj : forall s, sc_queue (sc_leave s) = sc_queue s /\ sc_loop (sc_leave s) = None /\ sc_exec (sc_leave s) = false /\
  sc_next (sc_leave s) = sc_next s /\ sc_now (sc_leave s) = sc_now s.
Proof. intro s. unfold sc_leave, sc_scheduleNext. cbn. destruct (sc_queue s); cbn; auto. Qed.
Lemma next_proj : forall s, sc_queue (sc_scheduleNext s) = sc_queue s /\ sc_loop (sc_scheduleNext s) = sc_loop s /\ sc_exec (sc_scheduleNext s) = sc_exec s /\
  sc_next (sc_scheduleNext s) = sc_next s /\ sc_now (sc_scheduleNext s) = sc_now s /\ sc_ready (sc_scheduleNext s) = sc_ready s /\
  (forall e q, sc_queue s = e :: q -> sc_wait (sc_scheduleNext s) = Some (ev_exp e)).
Proof. intro s. unfold sc_scheduleNext. destruct (sc_queue s) as [|e q] eqn:E; cbn; rewrite ?E; splits; auto; intros; congruence. Qed.

Lemma filter_fst : forall i (p : list (nat * Z)) e, In e (filter (fun e => negb (Nat.eqb (fst e) i)) p) <-> In e p /\ fst e <> i.
Proof. intros. rewrite filter_In. destruct (Nat.eqb_spec (fst e) i); cbn; intuition discriminate. Qed.
Lemma filter_nodup : forall (f : nat * Z -> bool) p, NoDup (map fst p) -> NoDup (map fst (filter f p)).
Proof.
  induction p as [|x p IH]; cbn; auto. intro H. apply NoDup_cons_iff in H as [N H]. destruct (f x); cbn; auto. constructor; auto.
  intro I. apply N. apply in_map_iff in I as (y & E & I). apply filter_In in I as [I _]. apply in_map_iff. eauto.
Qed.
Lemma erase_in : forall i q e, In e (ev_erase i q) <-> In e q /\ ev_id e <> i.
Proof. intros. unfold ev_erase. rewrite filter_In. destruct (Nat.eqb_spec (ev_id e) i); cbn; intuition discriminate. Qed.

Lemma cancel_inv : forall i s l, sc_inv s l -> sc_inv (sc_cancel i s) (l ++ [OCancel i]).
Proof.
  intros i s l (So & Q & ND & Lt & Ps & Ex & Tm & Lp).
  assert (Pm : forall e, In e (pend (l ++ [OCancel i])) <-> In e (pend l) /\ fst e <> i) by (intro e; rewrite pend_app; apply filter_fst).
  assert (Sc : scheds (l ++ [OCancel i]) = scheds l) by (rewrite scheds_app; cbn; now rewrite app_nil_r).
  assert (ND' : NoDup (map fst (pend (l ++ [OCancel i])))) by (rewrite pend_app; now apply filter_nodup).
  unfold sc_cancel. destruct (ev_mem i (sc_queue s)) eqn:M; cbn [negb].
  - set (s1 := if match sc_queue s with x :: _ => Nat.eqb (ev_id x) i | [] => false end then sc_setW None s else s).
    assert (S1 : sc_queue s1 = sc_queue s /\ sc_loop s1 = sc_loop s /\ sc_exec s1 = sc_exec s /\ sc_next s1 = sc_next s /\ sc_now s1 = sc_now s /\ sc_ready s1 = sc_ready s)
      by (unfold s1; destruct (match sc_queue s with x :: _ => _ | [] => _ end); cbn; splits; auto).
    destruct S1 as (_ & E2 & E3 & E4 & E5 & E6).
    set (s2 := sc_setQ (ev_erase i (sc_queue s)) s1).
    set (s3 := if negb (sc_exec s) then sc_scheduleNext s2 else s2).
    assert (S3 : sc_queue s3 = ev_erase i (sc_queue s) /\ sc_loop s3 = sc_loop s /\ sc_exec s3 = sc_exec s /\ sc_next s3 = sc_next s /\ sc_now s3 = sc_now s).
    { unfold s3. destruct (negb (sc_exec s)); [destruct (next_proj s2) as (-> & -> & -> & -> & -> & _)|]; unfold s2; cbn; splits; auto. }
    destruct S3 as (F1 & F2 & F3 & F4 & F5). unfold sc_inv. rewrite F1, F2, F3, F4, F5, Sc. splits; auto.
    + now apply erase_sorted.
    + intro e. rewrite erase_in, Pm, Q. reflexivity.
    + intros e He. apply Ps. now apply Pm in He.
    + intros e q Hl Hq. right. unfold s3. assert (Hx : sc_exec s = false) by now apply Ex. rewrite Hx. cbn [negb].
      destruct (next_proj s2) as (_ & _ & _ & _ & _ & _ & W). exists (ev_exp e). split; [|lia]. eapply W. unfold s2. cbn. exact Hq.
  - unfold sc_inv. rewrite Sc. splits; auto.
    + intro e. rewrite Pm, Q. split; [|tauto]. intro H. split; auto. intro E. assert (ev_mem i (sc_queue s) = true); [|congruence].
      apply mem_in. exists e. split; [now apply Q|exact E].
    + intros e He. apply Ps. now apply Pm in He.
Qed.

Lemma step_inv : forall a s l s' o, sc_inv s l -> sc_step a s = Ok (s', o) ->
  sc_inv s' (l ++ o) /\ (o = [] \/ exists x, o = [x] /\ obs_ok l x).
Proof.
  intros a s l s' o I H. pose proof I as (So & Q & ND & Lt & Ps & Ex & Tm & Lp).
  destruct a as [after|i| |d| | | | | |]; cbn [sc_step] in H.
  - (* schedule *)
    unfold sc_schedule in H. destruct ((MAX_NS <? _) || _); [discriminate|]. cbn [bind] in H. injection H as <- <-.
    set (e := mkEv (sc_next s) (sc_now s + after)). set (q := ev_insert e (sc_queue s)).
    set (s1 := mkSched (sc_now s) (S (sc_next s)) q (sc_wait s) (sc_ready s) (sc_exec s) (sc_loop s)).
    set (first := match q with x :: _ => Nat.eqb (ev_id x) (sc_next s) | [] => false end).
    assert (Fresh : ~ In (sc_next s) (scheds l)) by (intro Z; apply Lt in Z; lia).
    split; [|right; eexists; split; [reflexivity|exact Fresh]].
    assert (Lq : forall x, In x (sc_queue s) -> (ev_id x < sc_next s)%nat).
    { intros x Hx. apply Lt. apply Q in Hx. apply Ps in Hx. exact Hx. }
    set (s2 := if negb (sc_exec s) && first then sc_scheduleNext s1 else s1).
    assert (S2 : sc_queue s2 = q /\ sc_loop s2 = sc_loop s /\ sc_exec s2 = sc_exec s /\ sc_next s2 = S (sc_next s) /\ sc_now s2 = sc_now s /\ sc_ready s2 = sc_ready s).
    { unfold s2. destruct (negb (sc_exec s) && first); [destruct (next_proj s1) as (-> & -> & -> & -> & -> & -> & _)|]; unfold s1; cbn; splits; auto. }
    destruct S2 as (F1 & F2 & F3 & F4 & F5 & F6). unfold sc_inv. rewrite F1, F2, F3, F4, F5, F6, pend_app, scheds_app. cbn [pend1 scheds flat_map app]. splits; auto.
    + apply insert_sorted; auto.
    + intro x. unfold q. rewrite insert_in, Q. cbn [In]. split; intros [H|H]; auto.
      * left. now subst x.
      * left. destruct x as [xi xe]. unfold evk in H. cbn in H. unfold e. congruence.
    + cbn. constructor; auto. intro Z. apply in_map_iff in Z as (y & Ey & Iy). apply Ps in Iy. rewrite Ey in Iy. now apply Fresh.
    + intros i. rewrite in_app_iff. cbn. intros [Z|[Z|[]]]; [apply Lt in Z; lia|lia].
    + intros x [Hx|Hx]; rewrite in_app_iff; [right; subst x; now left|left; now apply Ps].
    + intros x y Hl Hq. assert (Hx : sc_exec s = false) by now apply Ex. unfold s2. rewrite Hx. cbn [negb andb].
      destruct first eqn:Ff.
      * right. destruct (next_proj s1) as (_ & _ & _ & _ & _ & _ & W). exists (ev_exp x). split; [|lia]. eapply W. unfold s1. cbn. exact Hq.
      * unfold first in Ff. rewrite Hq in Ff. unfold s1. cbn [sc_wait]. unfold q in Hq.
        destruct (sc_queue s) as [|z qs] eqn:Eq; cbn in Hq; [injection Hq as <- _; cbn in Ff; rewrite Nat.eqb_refl in Ff; discriminate|].
        destruct (sc_now s + after <? ev_exp z) eqn:Lz; cbn in Hq; injection Hq as <- _; [cbn in Ff; rewrite Nat.eqb_refl in Ff; discriminate|].
        eapply Tm; eauto.
  - injection H as <- <-. split; [now apply cancel_inv|]. right. eexists. split; [reflexivity|exact Logic.I].
  - injection H as <- <-. split; [|right; eexists; split; [reflexivity|exact Logic.I]].
    unfold sc_inv. rewrite pend_app, scheds_app. cbn. rewrite app_nil_r. splits; auto; try tauto; try constructor. discriminate.
  - destruct (d <? 0) eqn:E; [discriminate|]. injection H as <- <-. rewrite app_nil_r. split; auto.
    unfold sc_inv. cbn. splits; auto. intros n b Hl. apply Lp in Hl. lia.
  - destruct (sc_wait s) as [t|] eqn:W; [|discriminate]. destruct (t <=? sc_now s); [|discriminate]. injection H as <- <-. rewrite app_nil_r. split; auto.
    unfold sc_inv. cbn. splits; auto. intros. left. lia.
  - destruct (sc_loop s) eqn:L; [discriminate|]. destruct (sc_ready s) eqn:R; [discriminate|]. injection H as <- <-. rewrite app_nil_r. split; auto.
    unfold sc_inv. cbn. splits; auto; try discriminate; [split; discriminate|]. intros n0 b [= <- _]. lia.
  - destruct (sc_loop s) as [[now [|]]|] eqn:L; try discriminate. destruct (sc_queue s) as [|e q] eqn:Eq; [discriminate|].
    destruct (now <? ev_exp e) eqn:Le; [discriminate|]. injection H as <- <-.
    apply StronglySorted_inv in So as [So F]. specialize (Lp now false eq_refl). split.
    + unfold sc_inv. cbn [sc_queue sc_loop sc_exec sc_next sc_now sc_ready sc_wait]. rewrite pend_app, scheds_app. cbn [pend1 scheds flat_map]. rewrite app_nil_r. splits; auto.
      * intro x. rewrite filter_fst, <- Q. cbn [In evk fst]. split.
        -- intro Hx. split; auto. intro E. assert (x = e).
           { assert (I1 : In (evk x) (pend l)) by (apply Q; now right). assert (I2 : In (evk e) (pend l)) by (apply Q; now left).
             assert (U : forall p (a b : nat * Z), NoDup (map fst p) -> In a p -> In b p -> fst a = fst b -> a = b).
             { clear. induction p as [|c p IH]; intros a b N Ia Ib E; [destruct Ia|]. cbn in N. apply NoDup_cons_iff in N as [N N'].
               destruct Ia as [-> |Ia], Ib as [-> |Ib]; auto.
               - elim N. rewrite E. now apply in_map.
               - elim N. rewrite <- E. now apply in_map. }
             assert (evk x = evk e) by (eapply U; eauto). destruct x, e. unfold evk in H. cbn in H. congruence. }
           subst x. rewrite Forall_forall in F. apply F in Hx. unfold lexs, sooner in Hx. lia.
        -- intros [[->|Hx] N]; [congruence|auto].
      * now apply filter_nodup.
      * intros x Hx. apply filter_fst in Hx as [Hx _]. now apply Ps.
      * rewrite Ex. split; discriminate.
      * discriminate.
      * intros n b [= <- <-]. exact Lp.
    + right. eexists. split; [reflexivity|]. cbn. exists (ev_exp e). splits.
      * apply (Q e). now left.
      * lia.
      * intros [i x] Hx N. rewrite Forall_forall in F.
        assert (Hq : In (mkEv i x) (e :: q)) by (apply Q; exact Hx). destruct Hq as [E|Hq].
        -- elim N. now rewrite E.
        -- exact (F _ Hq).
  - destruct (sc_loop s) as [[now [|]]|] eqn:L; try discriminate. injection H as <- <-. rewrite app_nil_r. split; auto.
    unfold sc_inv. cbn. splits; auto; try discriminate; [rewrite Ex; split; discriminate|]. intros n b [= <- _]. eapply Lp; eauto.
  - destruct (sc_loop s) as [[now [|]]|] eqn:L; try discriminate. injection H as <- <-. rewrite app_nil_r. split; auto.
    destruct (leave_proj s) as (F1 & F2 & F3 & F4 & F5). unfold sc_inv. rewrite F1, F2, F3, F4, F5. splits; auto; try tauto; try discriminate.
    intros e q _ Hq. right. exists (ev_exp e). split; [|lia]. eapply leave_wait. rewrite F1. exact Hq.
  - destruct (sc_loop s) as [[now [|]]|] eqn:L; try discriminate.
    assert (s' = sc_leave s /\ o = []) as [-> ->].
    { destruct (sc_queue s) as [|e q]; [|destruct (now <? ev_exp e); [|discriminate]]; injection H as <- <-; auto. }
    rewrite app_nil_r. split; auto.
    destruct (leave_proj s) as (F1 & F2 & F3 & F4 & F5). unfold sc_inv. rewrite F1, F2, F3, F4, F5. splits; auto; try tauto; try discriminate.
    intros e q _ Hq. right. exists (ev_exp e). split; [|lia]. eapply leave_wait. rewrite F1. exact Hq.
Qed.

Lemma run_inv : forall acts s l s' o, sc_inv s l -> sc_run acts s = Ok (s', o) ->
  sc_inv s' (l ++ o) /\ forall a x b, o = a ++ x :: b -> obs_ok (l ++ a) x.
Proof.
  induction acts as [|a acts IH]; intros s l s' o I H; cbn in H.
  - injection H as <- <-. rewrite app_nil_r. split; auto. intros [|]; discriminate.
  - destruct (sc_step a s) as [[s1 o1]|] eqn:E; [|discriminate]. cbn in H.
    destruct (sc_run acts s1) as [[s2 o2]|] eqn:E2; [|discriminate]. injection H as <- <-.
    apply (step_inv a s l) in E as [I1 O1]; auto. apply (IH s1 (l ++ o1)) in E2 as [I2 O2]; auto. rewrite app_assoc. split; auto.
    intros p x q Hx. destruct O1 as [->|(y & -> & Oy)].
    + cbn in Hx. specialize (O2 p x q Hx). now rewrite app_nil_r in O2.
    + destruct p as [|z p]; cbn in Hx.
      * injection Hx as -> _. now rewrite app_nil_r.
      * injection Hx as -> Hx. specialize (O2 p x q Hx). now rewrite <- app_assoc in O2.
Qed.
Lemma init_inv : forall t, sc_inv (sc_init t) [].
Proof. intro t. unfold sc_inv, sc_init, pend, scheds. cbn. splits; auto; try tauto; try constructor; try discriminate; tauto. Qed.

(* consequences, of the observations alone *)
Definition obs_all (l : list sobs) : Prop := forall a x b, l = a ++ x :: b -> obs_ok a x.
Lemma run_obs : forall acts t s l, sc_run acts (sc_init t) = Ok (s, l) -> sc_inv s l /\ obs_all l.
Proof. intros acts t s l H. apply (run_inv acts _ []) in H; [exact H|apply init_inv]. Qed.

Lemma obs_prefix : forall a b, obs_all (a ++ b) -> obs_all a.
Proof. intros a b H p x q E. apply (H p x (q ++ b)). now rewrite E, <- app_assoc. Qed.
Lemma pend_scheds : forall l e, In e (pend l) -> In (fst e) (scheds l).
Proof.
  induction l as [|o l IH] using rev_ind; intros e H; [destruct H|]. rewrite pend_app in H. rewrite scheds_app, in_app_iff.
  destruct o; cbn in H.
  - destruct H as [<- |H]; [right; now left|auto].
  - apply filter_fst in H. left. now apply IH.
  - destruct H.
  - apply filter_fst in H. left. now apply IH.
Qed.
Lemma scheds_nodup : forall l, obs_all l -> NoDup (scheds l).
Proof.
  induction l as [|o l IH] using rev_ind; intro H; [constructor|]. pose proof (IH (obs_prefix _ _ H)) as N. rewrite scheds_app.
  destruct o; cbn; rewrite ?app_nil_r; auto. specialize (H l _ [] eq_refl). cbn in H.
  clear IH. induction (scheds l) as [|y m IHm]; cbn; [constructor; auto; constructor|]. apply NoDup_cons_iff in N as [N1 N2]. constructor.
  - rewrite in_app_iff. cbn in *. intuition.
  - apply IHm; auto. cbn in H. tauto.
Qed.
(* an event that is not pending and has been scheduled does not become pending *)
Lemma gone : forall l1 l2 i, obs_all (l1 ++ l2) -> In i (scheds l1) -> ~ In i (map fst (pend l1)) -> ~ In i (map fst (pend (l1 ++ l2))) /\ ~ In i (runs l2).
Proof.
  induction l2 as [|o l2 IH] using rev_ind; intros i H Sc N; [rewrite app_nil_r; auto|]. rewrite app_assoc in *.
  pose proof (obs_prefix _ _ H) as Hp. destruct (IH i Hp Sc N) as [N1 N2]. specialize (H (l1 ++ l2) o [] eq_refl).
  rewrite pend_app. unfold runs in *. rewrite flat_map_app, in_app_iff. split.
  - intro I. apply in_map_iff in I as (e & Ee & I). destruct o; cbn in I, H.
    + destruct I as [<- |I]; [|apply N1; apply in_map_iff; eauto]. cbn in Ee. subst. apply H. rewrite scheds_app, in_app_iff. auto.
    + apply filter_fst in I. apply N1. apply in_map_iff. exists e. tauto.
    + destruct I.
    + apply filter_fst in I. apply N1. apply in_map_iff. exists e. tauto.
  - intros [I|I]; [auto|]. destruct o; cbn in I; try tauto. destruct I as [-> |[]]. cbn in H. destruct H as (x & Hx & _). apply N1. apply in_map_iff. exists (i, x). auto.
Qed.
Lemma runs_app : forall a b, runs (a ++ b) = runs a ++ runs b.
Proof. intros. unfold runs. now rewrite flat_map_app. Qed.
Lemma runs_nodup : forall l, obs_all l -> NoDup (runs l).
Proof.
  intros l. induction l as [|o l IH] using rev_ind; intro H; [constructor|]. pose proof (IH (obs_prefix _ _ H)) as N. rewrite runs_app.
  destruct o; cbn; rewrite ?app_nil_r; auto.
  assert (Z : ~ In i (runs l)).
  { intro I. apply in_flat_map in I as (x & Ix & Hx). destruct x; cbn in Hx; try tauto. destruct Hx as [-> |[]].
    apply in_split in Ix as (a & b & ->). pose proof (H a _ (b ++ [ORun i t]) ltac:(now rewrite <- app_assoc)) as Hr. cbn in Hr. destruct Hr as (x & Hx & _).
    assert (G : ~ In i (runs (b ++ [ORun i t]))).
    { apply (gone (a ++ [ORun i t0]) (b ++ [ORun i t]) i).
      - rewrite <- app_assoc. cbn. rewrite <- app_assoc in H. exact H.
      - rewrite scheds_app, in_app_iff. left. apply pend_scheds in Hx. exact Hx.
      - rewrite pend_app. intro I. apply in_map_iff in I as (e & Ee & I). cbn in I. apply filter_fst in I. tauto. }
    apply G. rewrite runs_app, in_app_iff. right. now left. }
  clear IH H. induction (runs l) as [|y m IHm]; cbn; [constructor; auto; constructor|]. apply NoDup_cons_iff in N as [N1 N2]. cbn in Z. constructor.
  - rewrite in_app_iff. cbn. intuition.
  - apply IHm; auto.
Qed.
Lemma cancelled_gone : forall a b i, obs_all (a ++ OCancel i :: b) -> In i (scheds a) -> ~ In i (runs b).
Proof.
  intros a b i H Sc. replace (a ++ OCancel i :: b) with ((a ++ [OCancel i]) ++ b) in H by (now rewrite <- app_assoc).
  apply (gone _ _ i) in H; [tauto|rewrite scheds_app, in_app_iff; auto|].
  rewrite pend_app. intro I. apply in_map_iff in I as (e & Ee & I). cbn in I. apply filter_fst in I. tauto.
Qed.
Lemma all_gone : forall a b i, obs_all (a ++ OCancelAll :: b) -> In i (scheds a) -> ~ In i (runs b).
Proof.
  intros a b i H Sc. replace (a ++ OCancelAll :: b) with ((a ++ [OCancelAll]) ++ b) in H by (now rewrite <- app_assoc).
  apply (gone _ _ i) in H; [tauto|rewrite scheds_app, in_app_iff; auto|]. rewrite pend_app. cbn. tauto.
Qed.

(* progress *)
Fixpoint due (q : list sev) (t : Z) : list sev :=
  match q with e :: q' => if ev_exp e <=? t then e :: due q' t else [] | [] => [] end.
Definition loop_acts (n : nat) : list sact := concat (repeat [SRun; SReturn] n) ++ [SDone].
Lemma loop_runs : forall q s t, sc_loop s = Some (t, false) -> sc_queue s = q -> t <= sc_now s ->
  exists s', sc_run (loop_acts (length (due q t))) s = Ok (s', map (fun e => ORun (ev_id e) (sc_now s)) (due q t)) /\ sc_loop s' = None.
Proof.
  induction q as [|e q IH]; intros s t L Q T.
  - exists (sc_leave s). cbn. rewrite L, Q. cbn. split; auto. apply leave_proj.
  - cbn [due]. destruct (ev_exp e <=? t) eqn:E.
    + cbn [length repeat loop_acts concat app sc_run sc_step]. unfold loop_acts. cbn [length repeat concat app sc_run sc_step]. rewrite L, Q.
      destruct (t <? ev_exp e) eqn:E'; [lia|]. cbn [bind sc_loop].
      edestruct (IH (mkSched (sc_now s) (sc_next s) q (sc_wait s) (sc_ready s) (sc_exec s) (Some (t, false))) t) as (s' & R & N); auto.
      exists s'. unfold loop_acts in R. cbn [sc_now sc_next sc_queue sc_wait sc_ready sc_exec fst snd bind sc_loop] in R |- *. rewrite R. cbn. auto.
    + exists (sc_leave s). cbn. rewrite L, Q. destruct (t <? ev_exp e) eqn:E'; [|lia]. cbn. split; auto. apply leave_proj.
Qed.
Lemma due_in : forall q t e, StronglySorted lexs q -> In e q -> ev_exp e <= t -> In e (due q t).
Proof.
  induction q as [|x q IH]; intros t e S0 I L; [destruct I|]. apply StronglySorted_inv in S0 as [S0 F]. cbn.
  assert (ev_exp x <= ev_exp e).
  { destruct I as [-> |I]; [lia|]. rewrite Forall_forall in F. apply F in I. unfold lexs, sooner in I. cbn in I. lia. }
  destruct (ev_exp x <=? t) eqn:E; [|lia]. destruct I as [-> |I]; [now left|]. right. auto.
Qed.
Lemma progress : forall acts t0 s l i x, sc_run acts (sc_init t0) = Ok (s, l) -> sc_loop s = None -> In (i, x) (pend l) -> x <= sc_now s ->
  exists acts' s' l', (forall a, In a acts' -> a = SFire \/ a = SWake \/ a = SRun \/ a = SReturn \/ a = SDone) /\
    sc_run acts' s = Ok (s', l') /\ In (ORun i (sc_now s)) l' /\ sc_loop s' = None.
Proof.
  intros acts t0 s l i x R L P X. apply run_obs in R as [(So & Q & ND & Lt & Ps & Ex & Tm & Lp) _].
  assert (Iq : In (mkEv i x) (sc_queue s)) by (apply Q; exact P).
  assert (G : forall s1, sc_queue s1 = sc_queue s -> sc_now s1 = sc_now s -> sc_loop s1 = None -> (0 < sc_ready s1)%nat ->
    exists s' l', sc_run (SWake :: loop_acts (length (due (sc_queue s) (sc_now s)))) s1 = Ok (s', l') /\ In (ORun i (sc_now s)) l' /\ sc_loop s' = None).
  { intros s1 Eq En El Er. cbn [sc_run sc_step]. rewrite El. destruct (sc_ready s1) as [|k] eqn:Ek; [lia|]. cbn [bind fst snd].
    edestruct (loop_runs (sc_queue s) (mkSched (sc_now s1) (sc_next s1) (sc_queue s1) (sc_wait s1) k true (Some (sc_now s1, false))) (sc_now s1)) as (s' & R & N); cbn; auto; [lia|].
    rewrite En in R. rewrite En. rewrite R. cbn. do 2 eexists. split; [reflexivity|]. split; auto.
    apply (in_map (fun e => ORun (ev_id e) (sc_now s))) with (x := mkEv i x). apply due_in; auto. }
  assert (A : forall n a, In a (loop_acts n) -> a = SFire \/ a = SWake \/ a = SRun \/ a = SReturn \/ a = SDone).
  { intros n a. unfold loop_acts. rewrite in_app_iff. intros [H|[<- |[]]]; auto 6. apply in_concat in H as (y & Hy & Ha). apply repeat_spec in Hy. subst y. cbn in Ha. intuition. }
  destruct (sc_queue s) as [|e q] eqn:Eq; [destruct Iq|].
  destruct (Tm e q L eq_refl) as [Hr|(t & Ht & Le)].
  - destruct (G s) as (s' & l' & R & H1 & H2); auto. exists (SWake :: loop_acts (length (due (e :: q) (sc_now s)))), s', l'. splits; auto.
    intros a [<- |Ha]; [auto|]. eapply A; eauto.
  - assert (Lh : ev_exp e <= x).
    { apply StronglySorted_inv in So as [_ F]. destruct Iq as [-> |Iq]; [cbn; lia|]. rewrite Forall_forall in F. apply F in Iq. unfold lexs, sooner in Iq. cbn in Iq. lia. }
    set (s1 := mkSched (sc_now s) (sc_next s) (sc_queue s) None (S (sc_ready s)) (sc_exec s) (sc_loop s)).
    destruct (G s1) as (s' & l' & R & H1 & H2); auto; [cbn; lia|].
    exists (SFire :: SWake :: loop_acts (length (due (e :: q) (sc_now s)))), s', l'. splits; auto.
    + intros a [<- |[<- |Ha]]; [auto|auto|]. eapply A; eauto.
    + cbn [sc_run]. unfold sc_step at 1. rewrite Ht. destruct (t <=? sc_now s) eqn:E; [|lia]. cbn [bind fst snd]. fold s1. cbn [sc_run] in R. rewrite R. reflexivity.
Qed.

(* scoped handles *)
Lemma sc_run_app : forall a b s s1 o1, sc_run a s = Ok (s1, o1) -> sc_run (a ++ b) s = (let! r := sc_run b s1 in Ok (fst r, o1 ++ snd r)).
Proof.
  induction a as [|x a IH]; intros b s s1 o1 H; cbn in *.
  - injection H as <- <-. destruct (sc_run b s) as [[? ?]|]; reflexivity.
  - destruct (sc_step x s) as [[s2 o2]|]; [|discriminate]. cbn in *. destruct (sc_run a s2) as [[s3 o3]|] eqn:E; [|discriminate]. cbn in H. injection H as <- <-.
    rewrite (IH b _ _ _ E). destruct (sc_run b s3) as [[? ?]|]; cbn; [|reflexivity]. now rewrite app_assoc.
Qed.
Lemma hs_flat : forall l s h s' h' o, hs_run l s h = Ok (s', h', o) -> exists acts, sc_run acts s = Ok (s', o).
Proof.
  induction l as [|x l IH]; intros s h s' h' o H; cbn in H.
  - injection H as <- <- <-. exists []. reflexivity.
  - destruct (sc_run (fst (hs_acts x h)) s) as [[s1 o1]|] eqn:E; [|discriminate]. cbn in H.
    destruct (hs_run l s1 (snd (hs_acts x h))) as [[[s2 h2] o2]|] eqn:E2; [|discriminate]. cbn in H. injection H as <- <- <-.
    apply IH in E2 as [acts A]. exists (fst (hs_acts x h) ++ acts). rewrite (sc_run_app _ acts _ _ _ E), A. reflexivity.
Qed.
Lemma hs_run_app : forall a b s h s1 h1 o1 s2 h2 o2, hs_run a s h = Ok (s1, h1, o1) -> hs_run b s1 h1 = Ok (s2, h2, o2) -> hs_run (a ++ b) s h = Ok (s2, h2, o1 ++ o2).
Proof.
  induction a as [|x a IH]; intros b s h s1 h1 o1 s2 h2 o2 H1 H2; cbn in *.
  - injection H1 as <- <- <-. exact H2.
  - destruct (sc_run (fst (hs_acts x h)) s) as [[s3 o3]|]; [|discriminate]. cbn in *.
    destruct (hs_run a s3 (snd (hs_acts x h))) as [[[s4 h4] o4]|] eqn:E2; [|discriminate]. cbn in H1. injection H1 as <- <- <-.
    rewrite (IH b _ _ _ _ _ _ _ _ E2 H2). cbn. now rewrite app_assoc.
Qed.
Lemma scoped_gone : forall ops t0 s h l v i o ops2 s2 h2 l2,
  hs_run ops (sc_init t0) (fun _ => None) = Ok (s, h, l) -> h v = Some i -> In i (scheds l) ->
  (o = HDestroy v \/ o = HCancel v \/ (exists j, o = HAssign v j) \/ (exists w, o = HMove v w)) ->
  hs_run (o :: ops2) s h = Ok (s2, h2, l2) -> ~ In i (runs l2).
Proof.
  intros ops t0 s h l v i o ops2 s2 h2 l2 R Hv Sc Ho R2.
  pose proof (hs_run_app _ _ _ _ _ _ _ _ _ _ R R2) as R3. apply hs_flat in R3 as [acts A]. apply run_obs in A as [_ A].
  assert (E : fst (hs_acts o h) = [SCancel i]).
  { destruct Ho as [-> |[-> |[[j ->]|[w ->]]]]; cbn; unfold hcancel; now rewrite Hv. }
  cbn [hs_run] in R2. rewrite E in R2. cbn in R2.
  destruct (hs_run ops2 (sc_cancel i s) (snd (hs_acts o h))) as [[[s4 h4] o4]|]; [|discriminate]. cbn in R2. injection R2 as <- <- <-.
  cbn. eapply cancelled_gone; eauto.
Qed.

(* Proofs about M_Transport *)
From Coq Require Import Lia ZifyBool ZifyNat ZifyN.
From Verif Require Import Base BaseLemmas M_Tlv P_Tlv S_Tlv M_Block P_Block M_Transport S_Transport.

Lemma sent_app : forall a b, sent (a ++ b) = sent a ++ sent b.
Proof. induction a as [|x a IH]; intro b; [reflexivity|]. destruct x; cbn; now rewrite ?IH. Qed.
Lemma written_app : forall a b, written (a ++ b) = written a ++ written b.
Proof. induction a as [|x a IH]; intro b; [reflexivity|]. destruct x; cbn; now rewrite ?IH, ?app_assoc. Qed.
Lemma received_app : forall a b, received (a ++ b) = received a ++ received b.
Proof. induction a as [|x a IH]; intro b; [reflexivity|]. destruct x; cbn; now rewrite ?IH, ?app_assoc. Qed.
Lemma delivered_app : forall a b, delivered (a ++ b) = delivered a ++ delivered b.
Proof. induction a as [|x a IH]; intro b; [reflexivity|]. destruct x; cbn; now rewrite ?IH. Qed.

Lemma trun_app : forall cb e1 e2 s s1, trun cb s e1 = (s1, None) -> trun cb s (e1 ++ e2) = trun cb s1 e2.
Proof.
  induction e1 as [|e e1 IH]; intros e2 s s1 H; cbn in *.
  - now injection H as ->.
  - destruct (tstep cb s e) as [s' [x|]]; [destruct (catchable x); [auto|discriminate]|auto].
Qed.
(* ---- sending ---- *)
Definition Kw (st : tstate) (q : list bytes) (wrs : list (bytes * wstat)) (l : list tlog) : Prop :=
  (st = CONNECTING /\ wrs = [] /\ q = sent l /\ written l = []) \/
  (st <> CONNECTING /\
   ((wrs = [] /\ exists rem, written l ++ rem = concat (sent l) /\ (q = [] -> rem = [])) \/
    exists rem x w q', wrs = [(rem, x)] /\ q = w :: q' /\ written l ++ rem ++ concat q' = concat (sent l))).
Definition Kopen (s : tr) : Prop :=
  t_impl s = true /\ t_open s = true /\ t_st s <> CLOSED /\ (t_conn s <> CoNone -> t_st s = CONNECTING) /\
  Kw (t_st s) (t_q s) (t_wrs s) (t_log s).
Definition Kclosed (s : tr) : Prop :=
  t_impl s = false /\ t_open s = false /\ (forall w x, In (w, x) (t_wrs s) -> x <> WWait) /\
  (length (t_wrs s) <= 1)%nat /\ (t_st s <> CLOSED -> t_st s = PAUSED) /\ t_q s = [] /\
  exists rem, written (t_log s) ++ rem = concat (sent (t_log s)).
Definition K (s : tr) : Prop := Kopen s \/ Kclosed s.

Lemma Kw_prefix : forall st q wrs l, Kw st q wrs l -> exists rem, written l ++ rem = concat (sent l).
Proof.
  intros st q wrs l [(_ & _ & _ & W)|(_ & [(_ & rem & H & _)|(rem & x & w & q' & _ & _ & H)])].
  - rewrite W. exists (concat (sent l)). reflexivity.
  - eauto.
  - rewrite <- H. eauto.
Qed.
Lemma Kw_len : forall st q wrs l, Kw st q wrs l -> (length wrs <= 1)%nat.
Proof. intros st q wrs l [(_ & -> & _)|(_ & [(-> & _)|(rem & x & w & q' & -> & _)])]; cbn; lia. Qed.

Definition mute (x : tlog) : Prop := match x with LSend _ | LXmit _ => False | _ => True end.
Lemma mute_eq : forall x l, mute x -> sent (l ++ [x]) = sent l /\ written (l ++ [x]) = written l.
Proof. intros x l M. rewrite sent_app, written_app. destruct x; try easy; cbn; now rewrite !app_nil_r. Qed.
Lemma K_say : forall x s, mute x -> K s -> K (say x s).
Proof.
  intros x s M. pose proof (mute_eq x (t_log s) M) as [E1 E2].
  unfold K, Kopen, Kclosed, Kw, say. cbn [t_impl t_open t_st t_conn t_q t_wrs t_log]. now rewrite E1, E2.
Qed.

Lemma K_cancel : forall s l, Kopen s -> t_st s = RUNNING -> written (t_log s) = written l -> sent (t_log s) = sent l ->
  exists rem, written l ++ rem = concat (sent l) /\
  (t_wrs (cancelOps s) = t_wrs s \/ t_wrs (cancelOps s) = []) /\ (t_q s = [] -> rem = []).
Proof.
  intros s l (I & O & S1 & C & [(S2 & _)|(_ & [(W & rem & P & Q)|(rem & x & w & q' & W & Q & P)])]) R E1 E2; [congruence|..];
    rewrite <- E1, <- E2.
  - exists rem. splits; auto. left. cbn. now rewrite W.
  - exists (rem ++ concat q'). splits; auto.
    + cbn. rewrite W. destruct x; cbn; auto.
    + rewrite Q. discriminate.
Qed.

Lemma filter_len : forall {A} (f : A -> bool) l, (length (filter f l) <= length l)%nat.
Proof. induction l as [|a l IH]; cbn; auto. destruct (f a); cbn; lia. Qed.

Lemma K_close : forall s, Kopen s -> Kclosed (set_impl false (say LClose (implClose s))).
Proof.
  intros s H. assert (Hk := H). destruct H as (I & O & S1 & C & W). unfold Kclosed.
  unfold implClose, cancelOps. cbn [set_st set_impl set_open set_conn set_tm set_q set_rds set_wrs say t_impl t_open t_wrs t_st t_q t_log].
  splits; auto.
  - intros w x G. apply filter_In in G as [_ G]. cbn in G. intros ->. discriminate.
  - etransitivity; [apply filter_len|]. now apply Kw_len in W.
  - congruence.
  - pose proof (mute_eq LClose (t_log s) Logic.I) as [E1 E2]. rewrite E1, E2. eapply Kw_prefix; eauto.
Qed.

Lemma K_trClose : forall s s' r, K s -> trClose s = (s', r) -> K s' /\ (Kclosed s -> s' = s /\ r = Some EAssert) /\
   (Kopen s -> r = None).
Proof.
  intros s s' r [H|H] E; unfold trClose in E.
  - assert (I := proj1 H). rewrite I in E. injection E as <- <-. splits; auto.
    + right. now apply K_close.
    + intros (I' & _). congruence.
  - assert (I := proj1 H). rewrite I in E. injection E as <- <-. splits; auto. now right. intros (I' & _). congruence.
Qed.
Lemma K_failWith : forall s s' r, K s -> failWith s = (s', r) -> K s'.
Proof.
  intros s s' r H E. unfold failWith in E. destruct (trClose s) as [s1 o] eqn:T.
  apply K_trClose in T as [T _]; auto. destruct o; injection E as <- <-; auto.
Qed.

Lemma K_do_call : forall s c s' r, K s -> do_call s c = (s', r) -> K s'.
Proof.
  intros s c s' r H E. destruct c as [w| | | |].
  - cbn [do_call] in E. destruct H as [H|H].
    2:{ assert (I := proj1 H). rewrite I in E. cbn in E. injection E as <- <-. now right. }
    destruct H as (I & O & S1 & C & W). rewrite I in E. cbn [negb] in E.
    assert (Eq : t_q (set_q (t_q s ++ [w]) (say (LSend w) s)) = t_q s ++ [w]) by reflexivity. rewrite Eq in E.
    assert (Es : sent (t_log s ++ [LSend w]) = sent (t_log s) ++ [w]) by (now rewrite sent_app).
    assert (Ew : written (t_log s ++ [LSend w]) = written (t_log s)) by (rewrite written_app; cbn; now rewrite app_nil_r).
    destruct W as [(S2 & W1 & W2 & W3)|(S2 & [(W1 & rem & P & Q)|(rem & x & w0 & q' & W1 & Q & P)])].
    + rewrite S2 in E. injection E as <- <-. left. unfold Kopen, Kw. cbn. splits; auto. left. rewrite Es, Ew, W2. auto.
    + destruct (t_q s) as [|w0 q0] eqn:EQ.
      * destruct (t_st s) eqn:Est; try congruence;
          (cbn in E; rewrite O in E; cbn in E; injection E as <- <-; left; unfold Kopen, Kw;
           cbn [set_wrs set_q say t_impl t_open t_st t_conn t_wrs t_q t_log];
           splits; auto; try congruence; try tauto; right; split; [congruence|]; right; rewrite W1, Es, Ew;
           do 3 eexists; exists []; splits; try reflexivity;
           rewrite (Q eq_refl), app_nil_r in P; rewrite P, concat_app; cbn; now rewrite !app_nil_r).
      * assert (E' : (set_q ((w0 :: q0) ++ [w]) (say (LSend w) s), None) = (s', r)).
        { destruct (t_st s); try congruence; cbn [length app] in E; rewrite app_length in E; cbn in E;
          rewrite Nat.add_1_r in E; exact E. }
        injection E' as <- <-. left. unfold Kopen, Kw. cbn [set_q say t_impl t_open t_st t_conn t_wrs t_q t_log].
        splits; auto. right. split; auto. left. split; auto. exists (rem ++ w). rewrite Es, Ew. split; [|discriminate].
        rewrite concat_app, <- P. cbn. now rewrite app_nil_r, !app_assoc.
    + rewrite Q in E.
      assert (E' : (set_q ((w0 :: q') ++ [w]) (say (LSend w) s), None) = (s', r)).
      { destruct (t_st s); try congruence; cbn [length app] in E; rewrite app_length in E; cbn in E;
        rewrite Nat.add_1_r in E; exact E. }
      injection E' as <- <-. left. unfold Kopen, Kw. cbn [set_q say t_impl t_open t_st t_conn t_wrs t_q t_log].
      splits; auto. right. split; auto. right. exists rem, x, w0, (q' ++ [w]). splits; auto.
      rewrite Es, Ew, !concat_app, <- P. cbn. now rewrite app_nil_r, <- !app_assoc.
  - cbn [do_call] in E. destruct H as [H|H].
    2:{ assert (I := proj1 H). rewrite I in E. cbn in E. injection E as <- <-. now right. }
    assert (Hk := H). destruct H as (I & O & S1 & C & W). rewrite I, O in E. cbn [negb] in E.
    destruct (t_st s) eqn:Est; try (injection E as <- <-; apply K_say; [exact Logic.I|now left]).
    injection E as <- <-.
    assert (Hs : Kopen (say LPause s)).
    { destruct (K_say LPause s Logic.I (or_introl Hk)) as [G|G]; auto. destruct G as (G & _). cbn in G. congruence. }
    destruct (K_cancel (say LPause s) (t_log s ++ [LPause]) Hs Est eq_refl eq_refl) as (rem & P & Q & R).
    left. unfold Kopen, Kw. cbn [set_st t_st t_impl t_open t_conn t_q t_wrs t_log].
    destruct Hs as (I' & O' & S1' & C' & W'). splits; auto; try discriminate.
    + change (t_conn (cancelOps (say LPause s))) with (match t_conn s with CoWait => CoNone | x => x end).
      change (t_conn (say LPause s)) with (t_conn s) in C'. change (t_st (say LPause s)) with (t_st s) in C'. rewrite Est in C'.
      destruct (t_conn s); [congruence|congruence|..]; intros _; exfalso; enough (RUNNING = CONNECTING) by discriminate; apply C'; discriminate.
    + right. split; [discriminate|]. destruct Q as [Q|Q].
      * rewrite Q. destruct W' as [(S2 & _)|(_ & W')]; [cbn in S2; congruence|]. exact W'.
      * rewrite Q. left. split; auto. exists rem. split; [exact P|exact R].
  - cbn [do_call] in E. destruct (t_impl s) eqn:I; [|injection E as <- <-; auto].
    injection E as <- <-. apply (K_say LResume) in H; [|exact Logic.I]. unfold implResume.
    destruct (t_st (say LResume s)) eqn:Est; auto.
    destruct H as [(I' & O & S1 & C & W)|(I' & _)]; [|cbn in I'; congruence].
    left. unfold Kopen, asyncReceive. cbn [set_rds set_n set_st t_st t_impl t_open t_conn t_q t_wrs t_log].
    splits; auto; try discriminate.
    + intro G. apply C in G. congruence.
    + destruct W as [(S2 & _)|(_ & W)]; [congruence|]. right. split; [discriminate|exact W].
  - cbn in E. apply K_trClose in E as [E _]; auto.
  - injection E as <- <-. auto.
Qed.

Lemma K_do_calls : forall cs s s' r, K s -> do_calls s cs = (s', r) -> K s'.
Proof.
  induction cs as [|c cs IH]; intros s s' r H E; cbn in E.
  - injection E as <- <-. auto.
  - destruct (do_call s c) as [s1 o] eqn:D. apply K_do_call in D; auto.
    destruct o; [injection E as <- <-; auto|eauto].
Qed.

Section Cb.
Variable cb : list tlog -> list call.

Lemma K_rxLoop : forall fuel s u s' rest r, K s -> rxLoop cb fuel s u = (s', rest, r) -> K s'.
Proof.
  induction fuel as [|f IH]; intros s u s' rest r H E; cbn [rxLoop] in E.
  - destruct u; injection E as <- <- <-; auto.
  - destruct u as [|b u]; [injection E as <- <- <-; auto|].
    destruct (fromBuffer (b :: u)) as [[e rest']|]; [|injection E as <- <- <-; auto].
    destruct (do_calls _ _) as [s1 o] eqn:D. apply K_do_calls in D; [|now apply K_say].
    destruct o; [injection E as <- <- <-; auto|eauto].
Qed.

Lemma K_readHandler : forall s x s' r, K s -> readHandler cb s x = (s', r) -> K s'.
Proof.
  intros s x s' r H E. destruct x as [|k|]; cbn [readHandler] in E.
  - injection E as <- <-. auto.
  - destruct (BUFSIZE <? t_n s + k); [injection E as <- <-; exact H|].
    destruct (rxLoop _ _ _ _) as [[s2 rest] o] eqn:L.
    apply K_rxLoop in L; [|exact H].
    destruct o; [injection E as <- <-; auto|].
    destruct (nlen rest =? 0); [injection E as <- <-; exact L|].
    destruct (negb _); [injection E as <- <-; exact L|].
    destruct (nlen rest =? BUFSIZE); [eapply K_failWith; eauto|injection E as <- <-; exact L].
  - eapply K_failWith; eauto.
Qed.

Lemma one_nth : forall {A} (l : list A) k x, (length l <= 1)%nat -> nth_error l k = Some x -> l = [x] /\ k = O.
Proof.
  intros A l k x L E. destruct l as [|y [|z l]]; cbn in L; try lia.
  - destruct k; discriminate.
  - destruct k as [|k]; cbn in E; [injection E as ->; auto|destruct k; discriminate].
Qed.

Lemma Kopen_wrs : forall s k x, Kopen s -> nth_error (t_wrs s) k = Some x ->
  k = O /\ t_wrs s = [x] /\ t_st s <> CONNECTING /\
  exists w q', t_q s = w :: q' /\ written (t_log s) ++ fst x ++ concat q' = concat (sent (t_log s)).
Proof.
  intros s k x (I & O' & S1 & C & W) E.
  pose proof (Kw_len _ _ _ _ W) as L. destruct (one_nth _ _ _ L E) as [E' ->].
  destruct W as [(_ & W & _)|(S2 & [(W & _)|(rem & y & w & q' & W & Q & P)])]; [congruence..|].
  splits; auto. rewrite W in E'. injection E' as <-. exists w, q'. auto.
Qed.

Lemma K_step : forall s e s' r, K s -> tstep cb s e = (s', r) -> K s'.
Proof.
  intros s e s' r H E. destruct e; cbn [tstep] in E.
  - eapply K_do_call; eauto.
  - destruct (t_conn s) eqn:Ec; try (injection E as <- <-; auto; fail). injection E as <- <-.
    destruct H as [(I & O & S1 & C & W)|H]; [left|right; exact H].
    unfold Kopen. cbn. splits; auto. intros _. apply C. congruence.
  - assert (G : forall ok, t_conn s <> CoNone -> connectHandler (set_conn CoNone s) ok = (s', r) -> K s').
    { intros ok Nc G. unfold connectHandler in G. destruct H as [(I & O & S1 & C & W)|H].
      - specialize (C Nc). destruct ok; cbn [negb] in G.
        + destruct W as [(_ & W1 & W2 & W3)|(S2 & _)]; [|congruence].
          cbn [set_tm set_conn set_st t_q] in G. destruct (t_q s) as [|w q] eqn:Q.
          * injection G as <- <-. left. unfold Kopen, Kw. cbn. splits; auto; try discriminate. now intros [].
            right. split; [discriminate|]. left. split; auto. exists []. rewrite <- W2, W3. auto.
          * unfold asyncWrite, implResume, asyncReceive in G. cbn in G. rewrite ?Q, ?O in G. cbn in G. injection G as <- <-. left. unfold Kopen, Kw. cbn.
            splits; auto; try discriminate. now intros [].
            right. split; [discriminate|]. right. rewrite W1, <- W2, W3. eexists w, _, w, q. splits; [reflexivity|auto|reflexivity].
        + eapply K_failWith in G; auto. left. unfold Kopen, Kw. cbn. splits; auto.
      - destruct ok; cbn [negb] in G.
        + assert (Q : t_q s = []) by apply H. cbn [set_tm set_conn set_st t_q] in G. rewrite Q in G. injection G as <- <-.
          right. destruct H as (A1 & A2 & A3 & A4 & A5 & A6 & A7). unfold Kclosed. cbn. splits; auto.
        + eapply K_failWith in G; auto. right. exact H. }
    destruct (t_conn s) eqn:Ec; try (injection E as <- <-; auto; fail); eapply G; eauto; discriminate.
  - destruct (t_tm s); injection E as <- <-; auto.
  - destruct (t_tm s); try (injection E as <- <-; auto; fail). eapply K_failWith in E; auto.
  - destruct (nth_error (t_rds s) k) as [[off [| |]]|]; try (injection E as <- <-; auto; fail).
    destruct (_ && _); injection E as <- <-; auto. apply K_say; [exact Logic.I|exact H].
  - destruct (nth_error (t_rds s) k) as [[off [| |]]|]; injection E as <- <-; auto.
  - destruct (nth_error (t_rds s) k) as [[off x]|]; [|injection E as <- <-; auto].
    destruct x; [injection E as <- <-; auto|..]; eapply K_readHandler in E; eauto.
  - destruct (nth_error (t_wrs s) k) as [[w [| |]]|] eqn:Ek; try (injection E as <- <-; auto; fail).
    destruct ((0 <? n) && (n <=? nlen w)) eqn:En; injection E as <- <-; auto.
    destruct H as [H|(A1 & A2 & A3 & _)].
    2:{ exfalso. eapply A3; [eapply nth_error_In; eauto|reflexivity]. }
    destruct (Kopen_wrs _ _ _ H Ek) as (-> & Ew & Ns & w0 & q' & Q & P). destruct H as (I & O & S1 & C & W).
    left. unfold Kopen, Kw. cbn [say set_wrs t_impl t_open t_st t_conn t_q t_wrs t_log]. splits; auto.
    right. split; auto. right. rewrite Ew. cbn. exists (ndrop n w), WReady, w0, q'. splits; auto.
    rewrite written_app, sent_app. cbn. rewrite !app_nil_r, <- P. cbn [fst].
    rewrite <- (ntake_ndrop n w) at 3. now rewrite <- !app_assoc.
  - destruct (nth_error (t_wrs s) k) as [[w [| |]]|] eqn:Ek; injection E as <- <-; auto.
    destruct H as [H|(A1 & A2 & A3 & _)].
    2:{ exfalso. eapply A3; [eapply nth_error_In; eauto|reflexivity]. }
    destruct (Kopen_wrs _ _ _ H Ek) as (-> & Ew & Ns & w0 & q' & Q & P). destruct H as (I & O & S1 & C & W).
    left. unfold Kopen, Kw. cbn [say set_wrs t_impl t_open t_st t_conn t_q t_wrs t_log]. splits; auto.
    right. split; auto. right. rewrite Ew. cbn. exists w, WBad, w0, q'. splits; auto.
  - destruct (nth_error (t_wrs s) k) as [[w x]|] eqn:Ek; [|injection E as <- <-; auto].
    destruct H as [H|H].
    + destruct (Kopen_wrs _ _ _ H Ek) as (-> & Ew & Ns & w0 & q' & Q & P). destruct H as (I & O & S1 & C & W).
      assert (Hr : K (set_wrs (remove_nth 0 (t_wrs s)) s)).
      { left. unfold Kopen, Kw. cbn [say set_wrs t_impl t_open t_st t_conn t_q t_wrs t_log]. splits; auto.
        right. split; auto. left. rewrite Ew. cbn. split; auto. rewrite <- P. cbn [fst]. exists (w ++ concat q').
        split; auto. rewrite Q. discriminate. }
      destruct x.
      * destruct w; injection E as <- <-; left; unfold Kopen; splits; auto.
      * destruct w as [|b w].
        -- unfold writeHandler in E. cbn [set_wrs t_st t_q] in E. rewrite Q in E. cbn [fst] in P. rewrite app_nil_l in P.
           assert (E' : (let s1 := set_q q' (set_wrs (remove_nth 0 (t_wrs s)) s) in
              match q' with [] => (s1, None) | _ :: _ => asyncWrite s1 end) = (s', r)).
           { destruct (t_st s); auto. congruence. }
           clear E. cbn zeta in E'. destruct q' as [|w1 q1].
           ++ injection E' as <- <-. left. unfold Kopen, Kw. cbn [set_q say set_wrs t_impl t_open t_st t_conn t_q t_wrs t_log].
              splits; auto. right. split; auto. left. rewrite Ew. cbn. split; auto. exists []. cbn in P. auto.
           ++ unfold asyncWrite in E'. cbn [set_q set_wrs t_q t_open t_wrs] in E'. rewrite O, Ew in E'. cbn [negb remove_nth firstn skipn app] in E'.
              injection E' as <- <-. left. unfold Kopen, Kw. cbn [set_q say set_wrs t_impl t_open t_st t_conn t_q t_wrs t_log].
              splits; auto. right. split; auto. right. do 4 eexists. splits; try reflexivity. exact P.
        -- injection E as <- <-. rewrite O, Ew. left. unfold Kopen, Kw. cbn [replace_nth firstn skipn app set_q say set_wrs t_impl t_open t_st t_conn t_q t_wrs t_log].
           splits; auto. right. split; auto. right. do 4 eexists. splits; try reflexivity. exact Q. exact P.
      * destruct w; eapply K_failWith in E; eauto.
    + assert (Hk := H). destruct H as (A1 & A2 & A3 & A4 & A5 & A6 & A7).
      destruct (one_nth _ _ _ A4 Ek) as [Ew ->].
      assert (Hr : Kclosed (set_wrs (remove_nth 0 (t_wrs s)) s)).
      { unfold Kclosed. cbn [set_wrs t_impl t_open t_st t_q t_wrs t_log]. rewrite Ew. cbn. splits; auto. }
      destruct x.
      * exfalso. eapply A3; [rewrite Ew; left; reflexivity|reflexivity].
      * destruct w as [|b w].
        -- unfold writeHandler in E. cbn [set_wrs t_st t_q] in E. rewrite A6 in E.
           destruct (t_st s); injection E as <- <-; right; auto.
        -- injection E as <- <-. rewrite A2, Ew. right. unfold Kclosed. cbn. splits; auto.
           intros w1 x [G|[]]. injection G as <- <-. discriminate.
      * destruct w; (eapply K_failWith in E; [exact E|right; exact Hr]).
Qed.

Lemma K_run : forall evs s s' r, K s -> trun cb s evs = (s', r) -> K s'.
Proof.
  induction evs as [|e evs IH]; intros s s' r H E; cbn in E.
  - injection E as <- <-. auto.
  - destruct (tstep cb s e) as [s1 o] eqn:T. apply K_step in T; auto.
    destruct o as [x|]; [|eauto]. destruct (catchable x); [|injection E as <- <-; auto].
    eapply IH; [|eauto]. now apply K_say.
Qed.

Lemma K_init : K tr_init.
Proof. left. unfold Kopen, Kw. cbn. splits; auto. discriminate. Qed.

Lemma written_prefix : forall evs s r, trun cb tr_init evs = (s, r) ->
  (exists rest, concat (sent (t_log s)) = written (t_log s) ++ rest) /\ (length (t_wrs s) <= 1)%nat.
Proof.
  intros evs s r E. apply K_run in E; [|exact K_init]. destruct E as [(_ & _ & _ & _ & W)|(_ & _ & _ & L & _ & _ & (rem & P))].
  - split; [|eapply Kw_len; eauto]. destruct (Kw_prefix _ _ _ _ W) as [rem P]. eauto.
  - split; auto. eauto.
Qed.
End Cb.

(* Proofs about M_Transport: whole runs, pause and close *)
From Coq Require Import Lia ZifyBool ZifyNat ZifyN.
From Verif Require Import Base BaseLemmas M_Tlv P_Tlv S_Tlv M_Block P_Block M_Transport S_Transport P_Transport P_TransportR.

(* ---- logs only grow ---- *)
Definition grows (s s' : tr) : Prop := exists l, t_log s' = t_log s ++ l.
Lemma grows_refl : forall s s', t_log s' = t_log s -> grows s s'.
Proof. intros s s' E. exists []. now rewrite app_nil_r. Qed.
Lemma grows_trans : forall a b c, grows a b -> grows b c -> grows a c.
Proof. intros a b c [l L] [m M]. exists (l ++ m). now rewrite M, L, app_assoc. Qed.
Lemma grows_say : forall x s s', t_log s' = t_log s ++ [x] -> grows s s'.
Proof. intros. now exists [x]. Qed.
#[local] Hint Resolve grows_refl grows_say : core.

Lemma grows_trClose : forall s s' r, trClose s = (s', r) -> grows s s'.
Proof. intros s s' r E. unfold trClose in E. destruct (t_impl s); injection E as <- <-; [eapply grows_say; reflexivity|auto]. Qed.
Lemma grows_failWith : forall s s' r, failWith s = (s', r) -> grows s s'.
Proof.
  intros s s' r E. unfold failWith in E. destruct (trClose s) as [s1 o] eqn:T. apply grows_trClose in T.
  destruct o; injection E as <- <-; auto.
Qed.
Lemma grows_asyncWrite : forall s s' r, asyncWrite s = (s', r) -> t_log s' = t_log s.
Proof. intros s s' r E. unfold asyncWrite in E. destruct (t_q s); injection E as <- <-; auto. Qed.
Lemma log_implResume : forall s, t_log (implResume s) = t_log s.
Proof. intro s. unfold implResume. destruct (t_st s); auto. Qed.
Lemma grows_call : forall s c s' r, do_call s c = (s', r) -> grows s s'.
Proof.
  intros s c s' r E. destruct c; cbn in E.
  - destruct (t_impl s); cbn in E; [|injection E as <- <-; auto].
    destruct (t_st s); try (injection E as <- <-; eapply grows_say; reflexivity);
     (destruct (_ =? 1)%nat; [apply grows_asyncWrite in E; eapply grows_say; rewrite E; reflexivity|injection E as <- <-; eapply grows_say; reflexivity]).
  - destruct (t_impl s); cbn in E; [|injection E as <- <-; auto].
    destruct (t_st s); try (injection E as <- <-; eapply grows_say; reflexivity).
    destruct (t_open s); injection E as <- <-; [eapply grows_say; reflexivity|auto].
  - destruct (t_impl s); injection E as <- <-; auto. eapply grows_say. now rewrite log_implResume.
  - now apply grows_trClose in E.
  - injection E as <- <-. auto.
Qed.
Lemma grows_calls : forall cs s s' r, do_calls s cs = (s', r) -> grows s s'.
Proof.
  induction cs as [|c cs IH]; intros s s' r E; cbn in E; [injection E as <- <-; auto|].
  destruct (do_call s c) as [s1 o] eqn:D. apply grows_call in D.
  destruct o; [injection E as <- <-; auto|]. eapply grows_trans; eauto.
Qed.

(* ---- a property kept by the steps of the read handler ---- *)
Section Ladder.
Variable cb : list tlog -> list call.
Variable P : tr -> Prop.
Hypothesis Pdel : forall e s, P s -> P (say (LDeliver e) s).
Hypothesis Pcall : forall l s c s' r, P s -> In c (cb l) -> do_call s c = (s', r) -> P s'.
Hypothesis Pn : forall v s, P s -> P (set_n v s).
Hypothesis Prx : forall v s, P s -> P (set_rx v s).
Lemma ladder_calls : forall l cs s s' r, P s -> (forall c, In c cs -> In c (cb l)) -> do_calls s cs = (s', r) -> P s'.
Proof.
  intros l. induction cs as [|c cs IH]; intros s s' r H I E; cbn in E; [injection E as <- <-; auto|].
  destruct (do_call s c) as [s1 o] eqn:D. apply (Pcall l) in D; auto; [|apply I; now left].
  destruct o; [injection E as <- <-; auto|]. eapply IH; eauto. intros. apply I. now right.
Qed.
Lemma ladder_rx : forall fuel s u s' rest r, P s -> rxLoop cb fuel s u = (s', rest, r) -> P s'.
Proof.
  induction fuel as [|f IH]; intros s u s' rest r H E; cbn [rxLoop] in E.
  - destruct u; injection E as <- <- <-; auto.
  - destruct u as [|b u]; [injection E as <- <- <-; auto|].
    destruct (fromBuffer (b :: u)) as [[e rest']|]; [|injection E as <- <- <-; auto].
    destruct (do_calls _ _) as [s1 o] eqn:D. apply (ladder_calls (t_log s)) in D; auto.
    destruct o; [injection E as <- <- <-; auto|eauto].
Qed.
(* the final state is a P-state, a P-state with a receive operation added, or a P-state that failed *)
Lemma ladder_read : forall s x s' r, P s -> readHandler cb s x = (s', r) ->
  P s' \/ (exists s0, P s0 /\ s' = asyncReceive s0 /\ r = None) \/ (exists s0, P s0 /\ failWith s0 = (s', r)).
Proof.
  intros s x s' r H E. destruct x as [|k|]; cbn [readHandler] in E.
  - injection E as <- <-. auto.
  - destruct (BUFSIZE <? t_n s + k); [injection E as <- <-; auto|].
    destruct (rxLoop _ _ _ _) as [[s2 rest] o] eqn:L.
    apply ladder_rx in L; [|auto].
    destruct o; [injection E as <- <-; auto|].
    destruct (nlen rest =? 0); [injection E as <- <-; right; left; eauto|].
    destruct (negb _); [injection E as <- <-; right; left; eexists; split; [|split; reflexivity]; auto|].
    destruct (nlen rest =? BUFSIZE); [right; right; eauto|injection E as <- <-; right; left; eauto].
  - right; right; eauto.
Qed.
End Ladder.

Section Cb.
Variable cb : list tlog -> list call.

Lemma grows_read : forall s x s' r, readHandler cb s x = (s', r) -> grows s s'.
Proof.
  intros s x s' r E. apply (ladder_read cb (grows s)) in E as [E|[(s0 & E & -> & _)|(s0 & E & F)]]; auto.
  - apply grows_failWith in F. eapply grows_trans; eauto.
  - intros e s1 H. eapply grows_trans; eauto. eapply grows_say; reflexivity.
  - intros l s1 c s2 r2 H _ D. apply grows_call in D. eapply grows_trans; eauto.
Qed.
Lemma grows_step : forall s e s' r, tstep cb s e = (s', r) -> grows s s'.
Proof.
  intros s e s' r E. destruct e; cbn [tstep] in E.
  - eapply grows_call; eauto.
  - destruct (t_conn s); injection E as <- <-; auto.
  - assert (G : forall ok, connectHandler (set_conn CoNone s) ok = (s', r) -> grows s s').
    { intros ok G. unfold connectHandler in G. destruct ok; cbn [negb] in G.
      - destruct (t_q _); [injection G as <- <-; auto|]. apply grows_asyncWrite in G. apply grows_refl. rewrite G. now rewrite log_implResume.
      - apply grows_failWith in G. exact G. }
    destruct (t_conn s); try (injection E as <- <-; auto); eauto.
  - destruct (t_tm s); injection E as <- <-; auto.
  - destruct (t_tm s); try (injection E as <- <-; auto; fail). apply grows_failWith in E. exact E.
  - destruct (nth_error (t_rds s) k) as [[off [| |]]|]; try (injection E as <- <-; auto; fail).
    destruct (_ && _); injection E as <- <-; auto. eapply grows_say; reflexivity.
  - destruct (nth_error (t_rds s) k) as [[off [| |]]|]; injection E as <- <-; auto.
  - destruct (nth_error (t_rds s) k) as [[off x]|]; [|injection E as <- <-; auto].
    destruct x; [injection E as <- <-; auto|..]; apply grows_read in E; exact E.
  - destruct (nth_error (t_wrs s) k) as [[w [| |]]|]; try (injection E as <- <-; auto; fail).
    destruct (_ && _); injection E as <- <-; auto. eapply grows_say; reflexivity.
  - destruct (nth_error (t_wrs s) k) as [[w [| |]]|]; injection E as <- <-; auto.
  - destruct (nth_error (t_wrs s) k) as [[w x]|]; [|injection E as <- <-; auto].
    destruct x; destruct w; try (injection E as <- <-; auto; fail); try (apply grows_failWith in E; exact E).
    unfold writeHandler in E. cbn [set_wrs t_st t_q] in E.
    destruct (t_st s); try (injection E as <- <-; auto; fail);
     (destruct (t_q s) as [|w1 q1]; [injection E as <- <-; auto|]; destruct q1; [injection E as <- <-; auto|];
      apply grows_asyncWrite in E; apply grows_refl; rewrite E; reflexivity).
Qed.
Lemma grows_run : forall evs s, grows s (fst (trun cb s evs)).
Proof.
  induction evs as [|e evs IH]; intro s; cbn; [auto|].
  destruct (tstep cb s e) as [s1 o] eqn:T. apply grows_step in T.
  destruct o as [x|]; [|eapply grows_trans; eauto]. destruct (catchable x); [|exact T].
  eapply grows_trans; [exact T|]. eapply grows_trans; [|apply IH]. eapply grows_say; reflexivity.
Qed.

Lemma prefix_trans : forall s s' w, grows s s' -> prefix_of (received (t_log s')) w -> prefix_of (received (t_log s)) w.
Proof.
  intros s s' w [l L] [c C]. rewrite L, received_app in C. exists (received l ++ c). now rewrite C, app_assoc.
Qed.

Lemma Q_run : calm_cb cb -> forall pkts, Forall is_packet pkts -> forall evs s, Q s -> Forall calm evs ->
  prefix_of (received (t_log (fst (trun cb s evs)))) (concat (map e_wire pkts)) ->
  exists s', trun cb s evs = (s', None) /\ Q s'.
Proof.
  intros Hc pkts Hp. induction evs as [|e evs IH]; intros s H C P; cbn [trun] in *.
  - eauto.
  - inversion C as [|? ? C1 C2]; subst.
    destruct (Q_step cb Hc s e pkts H C1 Hp) as (s1 & E & H1).
    { destruct (tstep cb s e) as [s1 o] eqn:T. cbn [fst].
      destruct o as [x|]; [destruct (catchable x)|].
      - eapply prefix_trans; [|exact P]. eapply grows_trans; [|apply grows_run]. eapply grows_say; reflexivity.
      - exact P.
      - eapply prefix_trans; [|exact P]. apply grows_run. }
    rewrite E in *. apply IH; auto.
Qed.

(* whatever the octets: the run goes on, or it stops at a full buffer *)
Lemma Q_run_any : calm_cb cb -> forall evs s, Q s -> Forall calm evs ->
  (exists s', trun cb s evs = (s', None) /\ Q s') \/
  exists evs1 e evs2 s1 s2, evs = evs1 ++ e :: evs2 /\ trun cb s evs1 = (s1, None) /\ tstep cb s1 e = (s2, Some ERuntime) /\ Full s2.
Proof.
  intros Hc. induction evs as [|e evs IH]; intros s H C; cbn [trun] in *; [eauto|].
  inversion C as [|? ? C1 C2]; subst.
  destruct (Q_step_any cb Hc s e H C1) as [(s1 & E & H1)|(s1 & E & H1)].
  - rewrite E. destruct (IH s1 H1 C2) as [H2|(e1 & e' & e2 & s2 & s3 & -> & R1 & R2 & R3)]; auto.
    right. exists (e :: e1), e', e2, s2, s3. splits; auto. cbn [trun]. rewrite E. exact R1.
  - right. exists [], e, evs, s, s1. auto.
Qed.
Lemma Q_init : Q tr_init.
Proof.
  split; [|split].
  - unfold A. cbn. splits; auto; try discriminate.
  - unfold tr_init, nlen. cbn [t_rx]. rewrite repeat_length. reflexivity.
  - unfold Rv. cbn. auto.
Qed.

Lemma chunking : calm_cb cb -> forall evs pkts s r, Forall calm evs -> Forall is_packet pkts -> trun cb tr_init evs = (s, r) ->
  (exists future, concat (map e_wire pkts) = received (t_log s) ++ future) ->
  r = None /\ ~ thrown (t_log s) /\
  (t_st s = RUNNING -> exists off x, t_rds s = [(off, x)] /\ off < 8800 /\ x <> RBad) /\
  exists k, delivered (t_log s) = firstn k pkts /\
    (~ read_queued s -> exists partial, received (t_log s) = concat (map e_wire (firstn k pkts)) ++ partial /\
       ((partial = [] /\ (k <= length pkts)%nat) \/ exists p x, nth_error pkts k = Some p /\ e_wire p = partial ++ x /\ x <> [])).
Proof.
  intros Hc evs pkts s r Ce Hp E Pf.
  destruct (Q_run Hc pkts Hp evs tr_init Q_init Ce) as (s' & E' & H). { rewrite E. exact Pf. }
  rewrite E in E'. injection E' as <- ->. destruct H as (H & L & R).
  assert (Wp : Forall elem_wf pkts) by (eapply Forall_impl; [|exact Hp]; exact packet_wf).
  split; auto. split; [unfold thrown; apply H|].
  unfold Rv in R. destruct (t_st s) eqn:Est; try contradiction.
  - destruct R as (R1 & R2 & R3 & R4). split; [discriminate|]. exists O. rewrite R3, R4. cbn. split; auto. intros _. exists []. split; auto. left. split; auto. lia.
  - destruct R as (R1 & R2 & R3 & R4 & x & k & R5 & R6 & R7 & R8). split.
    { intros _. exists (t_n s), x. splits; auto. destruct R6 as [[-> _]|[-> _]]; discriminate. }
    destruct Pf as [fut Pf]. rewrite R8, <- app_assoc in Pf.
    destruct (split_packets _ _ _ _ R4 Wp Pf) as (tl & Et & Ec).
    assert (Ek : firstn (length (delivered (t_log s))) pkts = delivered (t_log s)).
    { rewrite Et. now rewrite firstn_app, Nat.sub_diag, firstn_all, firstn_O, app_nil_r. }
    exists (length (delivered (t_log s))). rewrite Ek. split; auto. intro Nq.
    destruct R6 as [[-> ->]|[-> Hk]].
    2:{ exfalso. apply Nq. exists (t_n s), (RGot k). rewrite R5. split; [now left|discriminate]. }
    rewrite N.add_0_r in *. exists (ntake (t_n s) (t_rx s)). split; auto.
    assert (Wt : Forall elem_wf tl) by (rewrite Et in Wp; apply Forall_app in Wp; tauto).
    destruct (incomplete _ _ _ Wt Ec R3) as [[-> Hb]|(p & tl' & x & -> & Ep & Nx)].
    + left. split; auto. rewrite Et, app_length. lia.
    + right. exists p, x. splits; auto. rewrite Et, nth_error_app2, Nat.sub_diag by lia. reflexivity.
  - destruct R as (R1 & R2 & R3 & R4). split; [discriminate|]. exists O. rewrite R3, R4. cbn. split; auto. intros _. exists []. split; auto. left. split; auto. lia.
Qed.

Lemma any_stream : calm_cb cb -> forall evs s r, Forall calm evs -> trun cb tr_init evs = (s, r) ->
  (r = None /\ ~ thrown (t_log s) /\ t_st s <> CLOSED /\
   (t_st s = RUNNING -> exists off x, t_rds s = [(off, x)] /\ off < 8800 /\ x <> RBad) /\
   exists rest, received (t_log s) = concat (map e_wire (delivered (t_log s))) ++ rest /\
     (~ read_queued s -> nlen rest < 8800 /\ forall p w, is_tlv (e_type p) (e_val p) (e_wire p) -> rest <> e_wire p ++ w)) \/
  exists evs1 e evs2 s1 s2, evs = evs1 ++ e :: evs2 /\ trun cb tr_init evs1 = (s1, None) /\ tstep cb s1 e = (s2, Some ERuntime) /\
    t_st s2 = CLOSED /\ exists rest, received (t_log s2) = concat (map e_wire (delivered (t_log s2))) ++ rest /\ nlen rest = 8800 /\
      forall p w, is_tlv (e_type p) (e_val p) (e_wire p) -> rest <> e_wire p ++ w.
Proof.
  intros Hc evs s r Ce E.
  assert (NB : forall b, fromBuffer b = None -> forall p w, is_tlv (e_type p) (e_val p) (e_wire p) -> b <> e_wire p ++ w).
  { intros b F p w T ->. assert (X : fromBuffer (e_wire p ++ w) = Some (p, w)) by (now apply fromBuffer_iff). congruence. }
  destruct (Q_run_any Hc evs tr_init Q_init Ce) as [(s' & E' & H)|(e1 & e & e2 & s1 & s2 & E1 & E2 & E3 & F)].
  - left. rewrite E in E'. injection E' as <- ->. destruct H as (H & L & R). split; auto. split; [unfold thrown; apply H|].
    unfold Rv in R. destruct (t_st s) eqn:Est; try contradiction.
    + destruct R as (R1 & R2 & R3 & R4). split; [discriminate|]. split; [discriminate|]. exists []. rewrite R3, R4. cbn. split; auto. intros _. split; [lia|]. now apply NB.
    + destruct R as (R1 & R2 & R3 & R4 & x & k & R5 & R6 & R7 & R8). split; [discriminate|]. split.
      { intros _. exists (t_n s), x. splits; auto. destruct R6 as [[-> _]|[-> _]]; discriminate. }
      exists (ntake (t_n s + k) (t_rx s)). split; auto. intro Nq.
      destruct R6 as [[-> ->]|[-> Hk]].
      2:{ exfalso. apply Nq. exists (t_n s), (RGot k). rewrite R5. split; [now left|discriminate]. }
      rewrite N.add_0_r in *. split; [rewrite nlen_ntake; lia|]. now apply NB.
    + destruct R as (R1 & R2 & R3 & R4). split; [discriminate|]. split; [discriminate|]. exists []. rewrite R3, R4. cbn. split; auto. intros _. split; [lia|]. now apply NB.
  - right. exists e1, e, e2, s1, s2. destruct F as (F1 & _ & _ & rest & F2 & F3 & F4). splits; auto. exists rest. splits; auto.
Qed.

(* ---- all sent octets can be written ---- *)
Lemma drain : forall n s, (length (t_q s) <= n)%nat -> A s -> K s -> t_st s <> CONNECTING ->
  exists evs s', Forall write_progress evs /\ trun cb s evs = (s', None) /\
    sent (t_log s') = sent (t_log s) /\ written (t_log s') = concat (sent (t_log s')).
Proof.
  induction n as [|n IH]; intros s Ln H Hk Ns.
  - destruct (t_q s) as [|w q] eqn:Eq; [|cbn in Ln; lia].
    exists [], s. splits; auto. destruct H as (A1 & A2 & A3 & A4 & A5 & A6). unfold Lq in A6. rewrite Eq in A6.
    destruct Hk as [(_ & _ & _ & _ & W)|(I & _)]; [|congruence].
    destruct W as [(W & _)|(_ & [(_ & rem & P & Pq)|(rem & x & w & q' & _ & Qq & _)])]; [congruence| |congruence].
    rewrite (Pq Eq), app_nil_r in P. auto.
  - destruct (t_q s) as [|w q] eqn:Eq; [apply IH; auto; rewrite Eq; cbn; lia|].
    assert (HA := H). destruct H as (A1 & A2 & A3 & A4 & A5 & A6).
    assert (Hw : exists rem x, t_wrs s = [(rem, x)] /\ (x = WWait /\ rem <> [] \/ x = WReady)).
    { unfold Lq in A6. rewrite Eq in A6. destruct (t_st s); try congruence; auto. }
    (* one packet *)
    assert (Last : forall s1, t_wrs s1 = [([], WReady)] -> t_q s1 = w :: q -> t_st s1 = t_st s -> t_tm s1 = t_tm s -> A s1 -> K s1 ->
      sent (t_log s1) = sent (t_log s) ->
      exists evs s', Forall write_progress evs /\ trun cb s1 evs = (s', None) /\
        sent (t_log s') = sent (t_log s) /\ written (t_log s') = concat (sent (t_log s'))).
    { intros s1 E1 E2 E3 E4 H1 K1 S1.
      assert (T : exists s2, tstep cb s1 (EvWriteH 0) = (s2, None) /\ t_q s2 = q /\ t_st s2 = t_st s1 /\ A s2 /\ t_log s2 = t_log s1).
      { cbn [tstep]. rewrite E1. cbn. unfold writeHandler. cbn [set_wrs t_st t_q]. rewrite E2.
        destruct H1 as (B1 & B2 & B3 & B4 & B5 & B6).
        destruct q as [|w1 q1].
        - exists (set_q [] (set_wrs [] s1)). splits; auto.
          + destruct (t_st s1); try congruence; reflexivity.
          + unfold A. cbn. splits; auto. unfold Lq. destruct (t_st s1); auto.
        - exists (set_wrs [(w1, if nlen w1 =? 0 then WReady else WWait)] (set_q (w1 :: q1) (set_wrs [] s1))). splits; auto.
          + unfold asyncWrite. cbn. rewrite B2. cbn. destruct (t_st s1); try congruence; reflexivity.
          + unfold A. cbn. splits; auto. unfold Lq. destruct (t_st s1); try congruence; (eexists _, _; split; [reflexivity|];
            destruct (nlen w1 =? 0) eqn:E; auto; left; split; auto; now apply nlen_nz). }
      destruct T as (s2 & T & T1 & T2 & T3 & T4).
      assert (K2 : K s2) by (eapply K_step; eauto).
      destruct (IH s2) as (evs & s' & V1 & V2 & V3 & V4); auto.
      { rewrite T1. cbn in Ln. lia. } { congruence. }
      exists (EvWriteH 0 :: evs), s'. splits; auto.
      - constructor; auto. exact Logic.I.
      - cbn [trun]. rewrite T. exact V2.
      - rewrite V3, T4. exact S1. }
    assert (Mid : forall s1 rem, t_wrs s1 = [(rem, WWait)] -> rem <> [] -> t_q s1 = w :: q -> t_st s1 = t_st s -> t_tm s1 = t_tm s -> A s1 -> K s1 ->
      sent (t_log s1) = sent (t_log s) ->
      exists evs s', Forall write_progress evs /\ trun cb s1 evs = (s', None) /\
        sent (t_log s') = sent (t_log s) /\ written (t_log s') = concat (sent (t_log s'))).
    { intros s1 rem E1 Nr E2 E3 E4 H1 K1 S1.
      assert (T : tstep cb s1 (EvXmit 0 (nlen rem)) = (say (LXmit rem) (set_wrs [([], WReady)] s1), None)).
      { cbn [tstep]. rewrite E1. cbn. rewrite ntake_all, ndrop_all by lia.
        destruct ((0 <? nlen rem) && (nlen rem <=? nlen rem)) eqn:E; auto. exfalso.
        assert (nlen rem <> 0) by (intro Z; apply nlen_0 in Z; auto). lia. }
      assert (K2 := K_step cb _ _ _ _ K1 T).
      destruct (Last (say (LXmit rem) (set_wrs [([], WReady)] s1))) as (evs & s' & V1 & V2 & V3 & V4); auto.
      - apply A_say; [discriminate|]. destruct H1 as (B1 & B2 & B3 & B4 & B5 & B6). unfold A. cbn. splits; auto.
        unfold Lq. rewrite E2. destruct (t_st s1); try congruence; eauto.
      - cbn. rewrite sent_app. cbn. now rewrite app_nil_r.
      - exists (EvXmit 0 (nlen rem) :: evs), s'. splits; auto.
        + constructor; auto. exact Logic.I.
        + cbn [trun]. rewrite T. exact V2. }
    destruct Hw as (rem & x & Ew & [[-> Nr]| -> ]).
    + eapply Mid; eauto.
    + destruct rem as [|b rem]; [apply Last; auto|].
      assert (T : tstep cb s (EvWriteH 0) = (set_wrs [(b :: rem, WWait)] s, None)).
      { cbn [tstep]. rewrite Ew, A2. reflexivity. }
      assert (K2 := K_step cb _ _ _ _ Hk T).
      destruct (Mid (set_wrs [(b :: rem, WWait)] s) (b :: rem)) as (evs & s' & V1 & V2 & V3 & V4); auto; try discriminate.
      * unfold A. cbn. splits; auto. unfold Lq. rewrite Eq. destruct (t_st s); try congruence; (eexists _, _; split; [reflexivity|]; left; split; auto; discriminate).
      * exists (EvWriteH 0 :: evs), s'. splits; auto.
        -- constructor; auto. exact Logic.I.
        -- cbn [trun]. rewrite T. exact V2.
Qed.

Lemma no_stall : calm_cb cb -> forall evs pkts s r, Forall calm evs -> Forall is_packet pkts -> trun cb tr_init evs = (s, r) ->
  (exists future, concat (map e_wire pkts) = received (t_log s) ++ future) -> t_st s <> CONNECTING ->
  exists evs' s', Forall write_progress evs' /\ trun cb s evs' = (s', None) /\
    sent (t_log s') = sent (t_log s) /\ written (t_log s') = concat (sent (t_log s')).
Proof.
  intros Hc evs pkts s r Ce Hp E Pf Ns.
  destruct (Q_run Hc pkts Hp evs tr_init Q_init Ce) as (s' & E' & H). { rewrite E. exact Pf. }
  assert (E2 := E). rewrite E in E'. injection E' as <- ->.
  apply (drain (length (t_q s))); auto; [apply H|]. eapply K_run; [apply K_init|eauto].
Qed.
End Cb.

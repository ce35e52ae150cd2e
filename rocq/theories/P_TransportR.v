(* Proofs about M_Transport: receiving, and liveness of sending *)
From Coq Require Import Lia ZifyBool ZifyNat ZifyN.
From Verif Require Import Base BaseLemmas M_Tlv P_Tlv S_Tlv M_Block P_Block M_Transport S_Transport P_Transport.

Definition Lq (st : tstate) (q : list bytes) (wrs : list (bytes * wstat)) : Prop :=
  match st with
  | CONNECTING => wrs = []
  | _ => match q with
         | [] => wrs = []
         | _ => exists rem x, wrs = [(rem, x)] /\ (x = WWait /\ rem <> [] \/ x = WReady)
         end
  end.
Definition A (s : tr) : Prop :=
  t_impl s = true /\ t_open s = true /\ t_st s <> CLOSED /\ t_tm s <> TmFired /\ ~ In LThrow (t_log s) /\
  Lq (t_st s) (t_q s) (t_wrs s).
Definition G (s s' : tr) (es : list elem) : Prop :=
  t_st s' = t_st s /\ t_conn s' = t_conn s /\ t_rx s' = t_rx s /\ t_n s' = t_n s /\ t_rds s' = t_rds s /\
  exists l, t_log s' = t_log s ++ l /\ received l = [] /\ delivered l = es.

Lemma G_refl : forall s, G s s [].
Proof. intro s. unfold G. splits; auto. exists []. now rewrite app_nil_r. Qed.
Lemma G_trans : forall s1 s2 s3 a b, G s1 s2 a -> G s2 s3 b -> G s1 s3 (a ++ b).
Proof.
  intros s1 s2 s3 a b (A1 & A2 & A3 & A4 & A5 & l1 & L1 & R1 & D1) (B1 & B2 & B3 & B4 & B5 & l2 & L2 & R2 & D2).
  unfold G. splits; try congruence. exists (l1 ++ l2). rewrite L2, L1, app_assoc, received_app, delivered_app, R1, R2, D1, D2. auto.
Qed.

Lemma A_say : forall x s, x <> LThrow -> A s -> A (say x s).
Proof.
  intros x s N (A1 & A2 & A3 & A4 & A5 & A6). unfold A. cbn. splits; auto.
  rewrite in_app_iff. cbn. intros [H|[H|[]]]; auto.
Qed.
Lemma G_say : forall x s, (forall w, x <> LRecv w) -> (forall e, x <> LDeliver e) -> G s (say x s) [].
Proof.
  intros x s N1 N2. unfold G. cbn. splits; auto. exists [x]. split; auto.
  destruct x; cbn; auto; exfalso; [eapply N1|eapply N2]; reflexivity.
Qed.

Lemma nlen_nz : forall (w : bytes), nlen w =? 0 = false -> w <> [].
Proof. intros w H ->. discriminate. Qed.

Lemma calm_send : forall s w, A s -> exists s', do_call s (CSend w) = (s', None) /\ A s' /\ G s s' [].
Proof.
  intros s w H. assert (Hs := A_say (LSend w) s ltac:(discriminate) H).
  assert (Gs := G_say (LSend w) s ltac:(discriminate) ltac:(discriminate)).
  destruct H as (A1 & A2 & A3 & A4 & A5 & A6). destruct Hs as (_ & _ & _ & _ & B5 & _).
  cbn [do_call]. rewrite A1. cbn [negb]. unfold Lq in A6.
  destruct (t_st s) eqn:Est; [congruence|..].
  - eexists. split; [reflexivity|]. split; [|exact Gs].
    unfold A, Lq. cbn. rewrite Est. splits; auto; discriminate.
  - cbn [set_q say t_q]. destruct (t_q s) as [|w0 q0] eqn:Q.
    + unfold asyncWrite. cbn. rewrite A2. cbn. eexists. split; [reflexivity|]. split; [|exact Gs].
      unfold A, Lq. cbn. rewrite Est, A6. splits; auto; try discriminate. eexists _, _. split; [reflexivity|].
      destruct (nlen w =? 0) eqn:E; auto. left. split; auto. now apply nlen_nz.
    + cbn [app length]. rewrite app_length, Nat.add_1_r. cbn. eexists. split; [reflexivity|]. split; [|exact Gs].
      unfold A, Lq. cbn. rewrite Est. splits; auto; discriminate.
  - cbn [set_q say t_q]. destruct (t_q s) as [|w0 q0] eqn:Q.
    + unfold asyncWrite. cbn. rewrite A2. cbn. eexists. split; [reflexivity|]. split; [|exact Gs].
      unfold A, Lq. cbn. rewrite Est, A6. splits; auto; try discriminate. eexists _, _. split; [reflexivity|].
      destruct (nlen w =? 0) eqn:E; auto. left. split; auto. now apply nlen_nz.
    + cbn [app length]. rewrite app_length, Nat.add_1_r. cbn. eexists. split; [reflexivity|]. split; [|exact Gs].
      unfold A, Lq. cbn. rewrite Est. splits; auto; discriminate.
Qed.

Lemma calm_resume_idle : forall s, A s -> t_st s <> PAUSED -> do_call s CResume = (say LResume s, None).
Proof.
  intros s (A1 & _) N. cbn. rewrite A1. unfold implResume. cbn. destruct (t_st s); congruence.
Qed.

Lemma calm_calls_running : forall cs s, A s -> t_st s = RUNNING -> (forall c, In c cs -> calm_call c) ->
  exists s', do_calls s cs = (s', None) /\ A s' /\ G s s' [].
Proof.
  induction cs as [|c cs IH]; intros s H R C; cbn [do_calls].
  - exists s. splits; auto. apply G_refl.
  - assert (exists s1, do_call s c = (s1, None) /\ A s1 /\ G s s1 []) as (s1 & E & H1 & G1).
    { specialize (C c (or_introl eq_refl)). destruct c; try easy.
      - now apply calm_send.
      - rewrite calm_resume_idle by (auto; congruence). eexists. splits; [reflexivity|now apply A_say|now apply G_say]. }
    rewrite E. destruct (IH s1) as (s2 & E2 & H2 & G2); auto.
    + destruct G1 as (G1 & _). congruence.
    + intros. apply C. now right.
    + exists s2. splits; auto. now apply (G_trans s s1 s2 [] []).
Qed.

Section Cb.
Variable cb : list tlog -> list call.
Hypothesis Hcb : calm_cb cb.

Lemma fromBuffer_nil : fromBuffer [] = None.
Proof. reflexivity. Qed.

Lemma calm_rxLoop : forall fuel s u, (length u <= fuel)%nat -> A s -> t_st s = RUNNING ->
  exists s' es rest, rxLoop cb fuel s u = (s', rest, None) /\ A s' /\ G s s' es /\
    u = concat (map e_wire es) ++ rest /\ Forall elem_wf es /\ fromBuffer rest = None.
Proof.
  induction fuel as [|f IH]; intros s u L H R; cbn [rxLoop].
  - destruct u; [|cbn in L; lia]. exists s, [], []. splits; auto. apply G_refl.
  - destruct u as [|b u].
    { exists s, [], []. splits; auto. apply G_refl. }
    destruct (fromBuffer (b :: u)) as [[e rest]|] eqn:F.
    2:{ exists s, [], (b :: u). splits; auto. apply G_refl. }
    apply fromBuffer_inv in F as [We Eu].
    assert (Hs : A (say (LDeliver e) s)) by (now apply A_say).
    destruct (calm_calls_running (cb (t_log s)) _ Hs R (fun c => Hcb (t_log s) c)) as (s1 & E & H1 & G1).
    rewrite E. destruct (IH s1 rest) as (s2 & es & rest2 & E2 & H2 & G2 & U2 & W2 & F2); auto.
    + pose proof (elem_wf_wire_len e We) as Hl. assert (Lu : length (b :: u) = (length (e_wire e) + length rest)%nat) by (rewrite Eu; apply app_length).
      unfold nlen in Hl. lia.
    + destruct G1 as (G1 & _). rewrite G1. exact R.
    + exists s2, (e :: es), rest2. splits; auto.
      * apply (G_trans s (say (LDeliver e) s) s2 [e] es).
        -- unfold G. cbn. splits; auto. exists [LDeliver e]. auto.
        -- now apply (G_trans _ s1 s2 [] es).
      * rewrite Eu, U2. cbn. now rewrite app_assoc.
Qed.

(* the stream seen so far *)
Definition Rv (s : tr) : Prop :=
  match t_st s with
  | CONNECTING => (t_conn s = CoWait \/ t_conn s = CoOk) /\ t_rds s = [] /\ received (t_log s) = [] /\ delivered (t_log s) = []
  | PAUSED => t_conn s = CoNone /\ t_rds s = [] /\ received (t_log s) = [] /\ delivered (t_log s) = []
  | RUNNING =>
      t_conn s = CoNone /\ t_n s < 8800 /\ fromBuffer (ntake (t_n s) (t_rx s)) = None /\
      Forall elem_wf (delivered (t_log s)) /\
      exists r k, t_rds s = [(t_n s, r)] /\ (r = RWait /\ k = 0 \/ r = RGot k /\ 0 < k) /\ t_n s + k <= 8800 /\
        received (t_log s) = concat (map e_wire (delivered (t_log s))) ++ ntake (t_n s + k) (t_rx s)
  | CLOSED => False
  end.
Definition Q (s : tr) : Prop := A s /\ nlen (t_rx s) = 8800 /\ Rv s.

Definition prefix_of (a b : bytes) : Prop := exists c, b = a ++ c.

Lemma split_packets : forall dl pkts buf more,
  Forall elem_wf dl -> Forall elem_wf pkts -> concat (map e_wire pkts) = concat (map e_wire dl) ++ buf ++ more ->
  exists tl, pkts = dl ++ tl /\ concat (map e_wire tl) = buf ++ more.
Proof.
  induction dl as [|e dl IH]; intros pkts buf more W1 W2 H; cbn in H.
  - exists pkts. auto.
  - inversion W1 as [|? ? We Wd]; subst.
    assert (F : fromBuffer (concat (map e_wire pkts)) = Some (e, concat (map e_wire dl) ++ buf ++ more)).
    { rewrite H, <- app_assoc. now apply fromBuffer_wf. }
    destruct pkts as [|p pkts]; [cbn in F; discriminate|].
    inversion W2 as [|? ? Wp Wps]; subst. cbn [map concat] in F. rewrite fromBuffer_wf in F by auto.
    injection F as -> F. destruct (IH pkts buf more) as (tl & -> & E); auto. exists tl. auto.
Qed.

Lemma incomplete : forall buf more tl, Forall elem_wf tl -> concat (map e_wire tl) = buf ++ more -> fromBuffer buf = None ->
  (tl = [] /\ buf = []) \/ exists p tl' x, tl = p :: tl' /\ e_wire p = buf ++ x /\ x <> [].
Proof.
  intros buf more [|p tl] W E F.
  - cbn in E. symmetry in E. apply app_eq_nil in E as [-> ->]. auto.
  - right. exists p, tl. inversion W as [|? ? Wp Wt]; subst. cbn [map concat] in E.
    destruct (app_eq_app _ _ _ _ E) as (x & [[E1 E2]|[E1 E2]]).
    + exists x. splits; auto. intros ->. rewrite app_nil_r in E1. subst buf.
      rewrite <- (app_nil_r (e_wire p)), fromBuffer_wf in F; auto. discriminate.
    + subst buf. rewrite fromBuffer_wf in F by auto. discriminate.
Qed.

Lemma Rv_send : forall s s', Rv s -> G s s' [] -> Rv s'.
Proof.
  intros s s' H (G1 & G2 & G3 & G4 & G5 & l & L & R & D). unfold Rv in *.
  rewrite G1, G2, G3, G4, G5, L, received_app, delivered_app, R, D, !app_nil_r. exact H.
Qed.

Lemma nlen_one : forall {X} (l : list X) k x, (exists y, l = [y]) -> nth_error l k = Some x -> k = O /\ l = [x].
Proof.
  intros X l k x [y ->] E. destruct k as [|k]; cbn in E; [injection E as ->; auto|destruct k; discriminate].
Qed.

Lemma packet_wf : forall p, is_packet p -> elem_wf p.
Proof.
  intros p [T _]. assert (F : fromBuffer (e_wire p ++ []) = Some (p, [])) by (now apply fromBuffer_iff).
  now apply fromBuffer_inv in F.
Qed.

(* the buffer is full and holds no complete element: the transport closes and reports it *)
Definition Full (s : tr) : Prop := t_st s = CLOSED /\ t_impl s = false /\ Forall elem_wf (delivered (t_log s)) /\
  exists junk, received (t_log s) = concat (map e_wire (delivered (t_log s))) ++ junk /\ nlen junk = 8800 /\ fromBuffer junk = None.
Lemma Q_step_any : forall s e, Q s -> calm e ->
  (exists s', tstep cb s e = (s', None) /\ Q s') \/ exists s', tstep cb s e = (s', Some ERuntime) /\ Full s'.
Proof.
  intros s e (H & Lr & R) Ce.
  assert (A1 := proj1 H). assert (A2 := proj1 (proj2 H)).
  destruct e; cbn [calm] in Ce; try contradiction.
  all: match goal with |- context [EvReadH] => idtac | _ => left end.
  - destruct c; try contradiction.
    + destruct (calm_send s w H) as (s' & E & H' & Gs). exists s'. split; [exact E|].
      split; auto. split; [|eapply Rv_send; eauto]. destruct Gs as (_ & _ & -> & _). auto.
    + destruct (t_st s) eqn:Est.
      * exfalso. unfold A in H. tauto.
      * exists (say LResume s). cbn [tstep]. rewrite calm_resume_idle by (auto; congruence). split; auto.
        split; [now apply A_say|]. split; auto. eapply Rv_send; [eauto|]. now apply G_say.
      * exists (say LResume s). cbn [tstep]. rewrite calm_resume_idle by (auto; congruence). split; auto.
        split; [now apply A_say|]. split; auto. eapply Rv_send; [eauto|]. now apply G_say.
      * cbn [tstep do_call]. rewrite A1. eexists. split; [reflexivity|].
        destruct (A_say LResume s ltac:(discriminate) H) as (B1 & B2 & B3 & B4 & B5 & B6).
        unfold implResume. change (t_st (say LResume s)) with (t_st s) in *. rewrite Est in *.
        split; [|split; auto].
        -- unfold A. cbn in *. splits; auto. discriminate.
        -- unfold Rv in *. rewrite Est in R. destruct R as (R1 & R2 & R3 & R4). cbn. rewrite A2, R2. cbn.
           rewrite delivered_app, received_app, R3, R4. cbn. splits; auto; try lia.
           exists RWait, 0. splits; auto. lia.
  - subst ok. cbn [tstep]. unfold Rv in R. destruct (t_conn s) eqn:Ec.
    + exists s. split; auto. split; auto. split; auto. unfold Rv. now rewrite Ec.
    + eexists. split; [reflexivity|]. split; [exact H|]. split; auto. unfold Rv. cbn.
      destruct (t_st s); try tauto; try (destruct R; congruence).
    + exists s. split; auto. split; auto. split; auto. unfold Rv. now rewrite Ec.
    + exists s. split; auto. split; auto. split; auto. unfold Rv. now rewrite Ec.
  - cbn [tstep]. assert (Hn : t_conn s = CoOk \/ t_conn s <> CoOk) by (destruct (t_conn s); auto; right; discriminate).
    destruct Hn as [Ec|Ec].
    + rewrite Ec. unfold Rv in R. rewrite Ec in R.
      destruct (t_st s) eqn:Est; try tauto; try (destruct R; discriminate). destruct R as (_ & R2 & R3 & R4).
      destruct H as (_ & _ & _ & A4 & A5 & A6). rewrite Est in A6. cbn in A6.
      unfold connectHandler. cbn [negb set_tm set_conn set_st t_q]. destruct (t_q s) as [|w q] eqn:Eq.
      * eexists. split; [reflexivity|]. split; [|split; auto].
        -- unfold A. cbn. rewrite Eq. splits; auto; try discriminate. destruct (t_tm s); cbn; congruence.
        -- unfold Rv. cbn. auto.
      * unfold asyncWrite, implResume, asyncReceive. cbn. rewrite Eq, A2, A6, R2. cbn. eexists. split; [reflexivity|].
        split; [|split; auto].
        -- unfold A. cbn. rewrite Eq. splits; auto; try discriminate. destruct (t_tm s); cbn; congruence.
           cbn. eexists _, _. split; [reflexivity|]. destruct (nlen w =? 0) eqn:E; auto. left. split; auto. now apply nlen_nz.
        -- unfold Rv. cbn. rewrite R3, R4. splits; auto; try lia. exists RWait, 0. splits; auto. lia.
    + destruct (t_conn s) eqn:Ec'; [|..]; try congruence; try (exists s; split; auto; split; auto; fail).
      exfalso. unfold Rv in R. rewrite Ec' in R. destruct (t_st s); try tauto; try (destruct R as [[]]; discriminate); destruct R; discriminate.
  - cbn [tstep]. exists s. split; [|split; auto]. destruct (t_tm s) eqn:Et; auto. exfalso. unfold A in H. tauto.
  - cbn [tstep] in *. destruct (nth_error (t_rds s) k) as [[off x]|] eqn:En; [|exists s; split; auto; split; auto].
    destruct x; try (exists s; split; auto; split; auto; fail).
    destruct ((0 <? nlen w) && (off + nlen w <=? BUFSIZE)) eqn:Ew; [|exists s; split; auto; split; auto].
    eexists. split; [reflexivity|]. unfold Rv in R. destruct (t_st s) eqn:Est; try tauto;
      try (assert (Hr : t_rds s = []) by tauto; rewrite Hr in En; destruct k; discriminate).
    destruct R as (R1 & R2 & R3 & R4 & r & k0 & R5 & R6 & R7 & R8).
    destruct (nlen_one _ _ _ (ex_intro _ _ R5) En) as [-> En']. rewrite En' in R5. injection R5 as -> <-.
    destruct R6 as [[_ ->]|[R6 _]]; [|discriminate]. unfold BUFSIZE in Ew. rewrite N.add_0_r in R8.
    split; [|split].
    + now apply A_say.
    + cbn. rewrite !nlen_app, nlen_ntake, nlen_ndrop by lia. lia.
    + unfold Rv. cbn. rewrite Est, En'. cbn.
      assert (T1 : ntake (t_n s) (ntake (t_n s) (t_rx s) ++ w ++ ndrop (t_n s + nlen w) (t_rx s)) = ntake (t_n s) (t_rx s)).
      { rewrite <- (nlen_ntake (t_n s) (t_rx s)) at 1 by lia. apply ntake_app. }
      assert (T2 : ntake (t_n s + nlen w) (ntake (t_n s) (t_rx s) ++ w ++ ndrop (t_n s + nlen w) (t_rx s)) = ntake (t_n s) (t_rx s) ++ w).
      { rewrite app_assoc. replace (t_n s + nlen w) with (nlen (ntake (t_n s) (t_rx s) ++ w)) at 1 by (rewrite nlen_app, nlen_ntake by lia; lia). apply ntake_app. }
      rewrite T1, delivered_app, received_app. cbn. rewrite !app_nil_r. splits; auto.
      exists (RGot (nlen w)), (nlen w). rewrite T2, R8, app_assoc. splits; auto; try lia. right. split; auto. lia.
  - cbn [tstep] in *. destruct (nth_error (t_rds s) k) as [[off x]|] eqn:En; [|left; exists s; split; auto; split; auto].
    assert (Hx : x = RWait \/ x <> RWait) by (destruct x; auto; right; discriminate).
    destruct Hx as [->|Hx]; [left; exists s; split; auto; split; auto|].
    assert (R' := R). unfold Rv in R. destruct (t_st s) eqn:Est; try tauto;
      try (assert (Hr : t_rds s = []) by tauto; rewrite Hr in En; destruct k; discriminate).
    destruct R as (R1 & R2 & R3 & R4 & r & k0 & R5 & R6 & R7 & R8).
    destruct (nlen_one _ _ _ (ex_intro _ _ R5) En) as [-> En']. rewrite En' in R5. injection R5 as -> <-.
    destruct R6 as [[R6 _]|[-> Hk]]; [congruence|].
    cbn [readHandler] in *. set (s0 := set_rds (remove_nth 0 (t_rds s)) s) in *.
    assert (Es0 : t_rds s0 = []) by (unfold s0; cbn; now rewrite En').
    change (t_n s0) with (t_n s) in *. change (t_rx s0) with (t_rx s) in *.
    set (s1 := set_n (t_n s + k0) s0) in *.
    destruct (BUFSIZE <? t_n s + k0) eqn:Eb; [unfold BUFSIZE in Eb; lia|].
    destruct (calm_rxLoop (length (t_rx s)) s1 (ntake (t_n s + k0) (t_rx s))) as (s2 & es & rest & E2 & H2 & G2 & U2 & W2 & F2); auto.
    { unfold ntake. rewrite firstn_length. lia. }
    rewrite E2 in *. destruct G2 as (G21 & G22 & G23 & G24 & G25 & l & G26 & G27 & G28).
    change (t_st s1) with (t_st s) in G21. change (t_conn s1) with (t_conn s) in G22. change (t_rx s1) with (t_rx s) in G23.
    change (t_rds s1) with (t_rds s0) in G25. rewrite Es0 in G25. change (t_log s1) with (t_log s) in G26.
    change (t_n s1) with (t_n s + k0) in G24.
    assert (Ed : delivered (t_log s2) = delivered (t_log s) ++ es) by (now rewrite G26, delivered_app, G28).
    assert (Er : received (t_log s2) = concat (map e_wire (delivered (t_log s2))) ++ rest).
    { rewrite G26, received_app, G27, app_nil_r, R8, U2, <- G26, Ed, map_app, concat_app. now rewrite <- app_assoc. }
    assert (Wd : Forall elem_wf (delivered (t_log s2))) by (rewrite Ed; now apply Forall_app).
    assert (A2' : t_open s2 = true) by apply H2.
    assert (Hlr : nlen rest <= t_n s + k0).
    { assert (nlen (ntake (t_n s + k0) (t_rx s)) = t_n s + k0) by (apply nlen_ntake; lia). rewrite U2, nlen_app in H0. lia. }
    destruct (nlen rest =? 0) eqn:E0.
    { assert (rest = []) by (apply nlen_0; lia). subst rest. left. eexists. split; [reflexivity|]. split; [exact H2|]. split; [now cbn; rewrite G23|].
      unfold Rv. cbn. rewrite G21, Est, A2', G25. cbn. splits; auto; try congruence; try lia. exists RWait, 0. splits; auto. lia. }
    destruct (negb (nlen rest =? t_n s + k0)) eqn:E1.
    { left. eexists. split; [reflexivity|]. split; [exact H2|]. split.
      - cbn. rewrite nlen_app, nlen_ndrop, G23. lia.
      - unfold Rv. cbn. rewrite G21, Est, A2', G25, ntake_app. cbn.
        destruct (nlen rest =? BUFSIZE) eqn:E3; [unfold BUFSIZE in E3; lia|].
        splits; auto; try congruence; try lia. exists RWait, 0. rewrite N.add_0_r, ntake_app. splits; auto. lia. }
    assert (Hes : es = []).
    { destruct es as [|e es]; auto. exfalso. inversion W2 as [|? ? We ?]; subst. pose proof (elem_wf_wire_len e We).
      assert (Hnt : nlen (ntake (t_n s + k0) (t_rx s)) = t_n s + k0) by (apply nlen_ntake; lia). rewrite U2 in Hnt. cbn in Hnt.
      rewrite !nlen_app in Hnt. lia. }
    rewrite Hes in U2. cbn in U2.
    destruct (nlen rest =? BUFSIZE) eqn:E3.
    { right. unfold BUFSIZE in E3. unfold failWith, trClose. rewrite (proj1 H2). eexists. split; [reflexivity|]. unfold Full. cbn.
      rewrite received_app, delivered_app. cbn. rewrite !app_nil_r. splits; auto. exists rest. splits; auto. lia. }
    left. eexists. split; [reflexivity|]. split; [exact H2|]. split; [now cbn; rewrite G23|].
    unfold Rv. cbn. rewrite G21, Est, A2', G25, G24, G23. cbn. unfold BUFSIZE in *.
    destruct (t_n s + k0 =? 8800) eqn:E4; [lia|].
    rewrite U2. splits; auto; try congruence; try lia. exists RWait, 0. rewrite N.add_0_r, U2. splits; auto.
  - cbn [tstep] in *. destruct (nth_error (t_wrs s) k) as [[w x]|] eqn:En; [|exists s; split; auto; split; auto].
    destruct x; try (exists s; split; auto; split; auto; fail).
    destruct ((0 <? n) && (n <=? nlen w)) eqn:Ew; [|exists s; split; auto; split; auto].
    eexists. split; [reflexivity|]. split; [|split; [auto|]].
    + destruct H as (_ & _ & A3 & A4 & A5 & A6). apply A_say; [discriminate|]. unfold A. cbn. splits; auto.
      unfold Lq in *. destruct (t_st s) eqn:Est; try tauto.
      * rewrite A6 in En. destruct k; discriminate.
      * destruct (t_q s); [rewrite A6 in En; destruct k; discriminate|]. destruct A6 as (rem & y & A6 & _).
        destruct (nlen_one _ _ _ (ex_intro _ _ A6) En) as [-> E']. rewrite E'. cbn. eauto.
      * destruct (t_q s); [rewrite A6 in En; destruct k; discriminate|]. destruct A6 as (rem & y & A6 & _).
        destruct (nlen_one _ _ _ (ex_intro _ _ A6) En) as [-> E']. rewrite E'. cbn. eauto.
    + unfold Rv in *. cbn. rewrite received_app, delivered_app. cbn. rewrite !app_nil_r. exact R.
  - cbn [tstep] in *. destruct (nth_error (t_wrs s) k) as [[w x]|] eqn:En; [|exists s; split; auto; split; auto].
    destruct H as (_ & _ & A3 & A4 & A5 & A6). unfold Lq in A6.
    assert (Hq : t_st s <> CONNECTING /\ t_q s <> [] /\ exists rem y, t_wrs s = [(rem, y)] /\ (y = WWait /\ rem <> [] \/ y = WReady)).
    { destruct (t_st s); try tauto; try (rewrite A6 in En; destruct k; discriminate);
       (destruct (t_q s); [rewrite A6 in En; destruct k; discriminate|]); splits; auto; discriminate. }
    destruct Hq as (Ns & Nq & rem & y & Ew & Hy).
    destruct (nlen_one _ _ _ (ex_intro _ _ Ew) En) as [-> E']. rewrite E' in Ew. injection Ew as -> ->.
    assert (Hs : Q s) by (split; [unfold A; splits; auto|auto]).
    destruct Hy as [[-> Nr]| -> ].
    { exists s. split; [destruct rem; auto|exact Hs]. }
    destruct rem as [|b rem].
    + unfold writeHandler. cbn [set_wrs t_st t_q].
      assert (Nc : t_st s <> CLOSED) by auto.
      destruct (t_q s) as [|w0 q0] eqn:Eq; [congruence|].
      assert (Hw : exists s', (let s1 := set_q q0 (set_wrs (remove_nth 0 (t_wrs s)) s) in
         match q0 with [] => (s1, None) | _ => asyncWrite s1 end) = (s', None) /\ Q s').
      { cbn zeta. destruct q0 as [|w1 q1].
        - eexists. split; [reflexivity|]. split; [|split; [exact Lr|exact R]].
          unfold A. cbn. rewrite E'. cbn. splits; auto. unfold Lq. destruct (t_st s); auto.
        - unfold asyncWrite. cbn. rewrite A2, E'. cbn. eexists. split; [reflexivity|]. split; [|split; [exact Lr|exact R]].
          unfold A. cbn. splits; auto. unfold Lq. destruct (t_st s); try congruence; (eexists _, _; split; [reflexivity|];
          destruct (nlen w1 =? 0) eqn:E; auto; left; split; auto; now apply nlen_nz). }
      destruct (t_st s); [congruence|exact Hw..].
    + rewrite A2, E'. cbn. eexists. split; [reflexivity|]. split; [|split; auto].
      unfold A. cbn. splits; auto. unfold Lq. destruct (t_st s); try congruence;
        (destruct (t_q s); [congruence|]; eexists _, _; split; [reflexivity|]; left; split; auto; discriminate).
Qed.
Lemma Q_step : forall s e pkts, Q s -> calm e -> Forall is_packet pkts ->
  prefix_of (received (t_log (fst (tstep cb s e)))) (concat (map e_wire pkts)) ->
  exists s', tstep cb s e = (s', None) /\ Q s'.
Proof.
  intros s e pkts HQ Ce Wp Pf. destruct (Q_step_any s e HQ Ce) as [H|(s' & E & _ & _ & Wd & junk & Er & Lj & F2)]; auto. exfalso.
  rewrite E in Pf. cbn [fst] in Pf. rewrite Er in Pf.
  assert (Wp' : Forall elem_wf pkts).
  { eapply Forall_impl; [|exact Wp]. exact packet_wf. }
  destruct Pf as [more Pf]. rewrite <- app_assoc in Pf.
  destruct (split_packets _ _ _ _ Wd Wp' Pf) as (tl & Et & Ec).
  assert (Wt : Forall elem_wf tl) by (rewrite Et in Wp'; apply Forall_app in Wp'; tauto).
  destruct (incomplete _ _ _ Wt Ec F2) as [[_ Hb]|(p & tl' & x & -> & Ep & Nx)].
  - rewrite Hb in Lj. cbn in Lj. discriminate.
  - assert (Hp : is_packet p).
    { rewrite Et in Wp. apply Forall_app in Wp as [_ Wp]. now inversion Wp. }
    destruct Hp as [_ Hp]. rewrite Ep, nlen_app in Hp. assert (nlen x <> 0) by (intro Z; apply nlen_0 in Z; auto). lia.
Qed.
End Cb.

(* Theorems about Face: C38-C41. *)
From Coq Require Import Lia ZifyBool ZifyNat ZifyN Sorting.Sorted Permutation.
From Verif Require Import Base BaseLemmas S_Name M_Ims S_Ims P_Ims M_Face S_Face P_Face P_FaceI.

(* ================= C38 ================= *)
(* After any answer callback of an Interest there is no other, in any history of a face run by processEvents. *)
Theorem C38_at_most_one_answer : forall acts s h a e b id,
  face_reached true acts s h -> h = a ++ e :: b -> answers id e -> forall e', In e' b -> ~ answers id e'.
Proof.
  intros acts s h a e b id H E A e' He' A'.
  destruct (reach_split _ _ _ _ _ _ H E) as (acts1 & act & s1 & h1 & s2 & ev & x & y & h3 & _ & _ & _ & F & _ & -> & _ & -> & G).
  pose proof (s_nd _ _ _ _ F) as ND. rewrite cbs_app in ND. cbn in ND. rewrite (proj1 (answers_cbid id e) A) in ND.
  apply NoDup_remove_2 in ND. apply in_app_or in He'. destruct He' as [He'|He'].
  - apply ND. apply in_or_app; right. eapply answers_in; [exact He' | exact A'].
  - assert (Hid : In id (cbs (x ++ e :: y))) by (apply (answers_in id e); [apply in_or_app; right; left; reflexivity | exact A]).
    destruct (s_cb _ _ _ _ F id Hid) as [Gi _]. apply (G _ Gi). eapply answers_in; [exact He' | exact A'].
Qed.
(* Answer callbacks are only invoked for Interests expressed by the application, after they became pending. *)
Theorem C38_answers_expressed : forall acts s h a e b id,
  face_reached true acts s h -> h = a ++ e :: b -> answers id e -> exists q, In (EvStart id APP q) a.
Proof.
  intros acts s h a e b id H E A.
  destruct (reach_split _ _ _ _ _ _ H E) as (acts1 & act & s1 & h1 & s2 & ev & x & y & h3 & _ & _ & _ & F & R1 & -> & -> & _).
  assert (Hid : In id (cbs (x ++ e :: y))) by (apply (answers_in id e); [apply in_or_app; right; left; reflexivity | exact A]).
  destruct (s_cb _ _ _ _ F id Hid) as [_ (p & P1 & P2 & P3)]. exists (f_q p). apply in_or_app; left. rewrite <- P2, <- P3. apply (started_in_pit _ _ _ R1 P1).
Qed.
(* Interests get different ids. *)
Theorem C38_started_once : forall acts s h a id o q b,
  face_reached true acts s h -> h = a ++ EvStart id o q :: b -> forall o' q', ~ In (EvStart id o' q') a /\ ~ In (EvStart id o' q') b.
Proof.
  intros acts s h a id o q b H -> o' q'. pose proof (r_snd _ _ (reach_RI _ _ _ H)) as N. rewrite starts_app in N. cbn in N. apply NoDup_remove_2 in N.
  split; intro X; apply N; apply in_or_app; [left | right]; apply starts_in; exists o', q'; exact X.
Qed.
(* Once a pending Interest has been removed through its handle it gets no answer. *)
Theorem C38_no_answer_after_removal : forall acts s h a b id,
  face_reached true acts s h -> h = a ++ EvRemove id :: b -> forall e, In e b -> ~ answers id e.
Proof.
  intros acts s h a b id H E e He A.
  destruct (reach_split _ _ _ _ _ _ H E) as (acts1 & act & s1 & h1 & s2 & ev & x & y & h3 & _ & _ & _ & F & _ & X & _ & -> & G).
  destruct (s_rem _ _ _ _ F _ _ _ X) as [-> Gi]. apply (G _ Gi). eapply answers_in; [exact He | exact A].
Qed.
(* Once all have been removed (removeAllPendingInterests, shutdown), none of those pending gets an answer. *)
Theorem C38_no_answer_after_removeAll : forall acts s h a b id o q,
  face_reached true acts s h -> h = a ++ EvRemoveAll :: b -> In (EvStart id o q) a -> forall e, In e b -> ~ answers id e.
Proof.
  intros acts s h a b id o q H E St e He A.
  destruct (reach_split _ _ _ _ _ _ H E) as (acts1 & act & s1 & h1 & s2 & ev & x & y & h3 & _ & _ & R2 & F & _ & X & -> & -> & G).
  destruct (s_all _ _ _ _ F _ _ X) as [-> P]. apply (G id); [|eapply answers_in; [exact He | exact A]].
  assert (S2 : started (h1 ++ ev) id). { exists o, q. rewrite X. rewrite app_assoc. apply in_or_app. left. exact St. }
  split; [apply (r_start _ _ R2); exact S2|]. split; [rewrite P; intros []|]. intro Y. apply (r_queue _ _ R2) in Y. tauto.
Qed.

Definition ex_key (c : N) : key := (8, [nb c]).
Definition ex_q (c : N) : qint := mkQ [ex_key 97; ex_key c] true false.
Definition ex_d (c : N) : pkt := mkPkt [ex_key 97; ex_key c; ex_key 1] (repeat (nb 7) 32).
(* three Interests; one answered, one removed, one timed out *)
Definition ex_acts : list fact :=
  [ASetFilter (mkFilt [ex_key 97] None true); ARun None;
   AExpress (ex_q 1) false; AExpress (ex_q 2) false; AExpress (ex_q 1) false; ARun None; ARun None; ARun None;
   AData (ex_d 1) None; ACancel 2; ARun None; AData (ex_d 2) None; AExpress (ex_q 2) false; ARun None; ATimer 4 None; ATimer 4 None].
Example C38_ex : exists s h, face_reached true ex_acts s h /\ In (EvCbData 1 (ex_d 1)) h /\ In (EvCbData 3 (ex_d 1)) h /\ In (EvRemove 2) h /\ In (EvCbTimeout 4) h /\ fc_pit s = [].
Proof. do 2 eexists. split; [vm_compute; reflexivity|]. splits; cbn; tauto. Qed.

(* When the application runs the io_context itself and a callback throws, the Interest stays pending and is answered
   twice. *)
Theorem C38_refuted_throwing_callback : exists acts s h d, face_reached false acts s h /\
  exists a b c, h = a ++ EvCbData 1 d :: b ++ EvCbTimeout 1 :: c.
Proof.
  exists [AExpress (ex_q 1) false; ARun None; AData (ex_d 1) (Some 0%nat); ATimer 1 None]. do 2 eexists. exists (ex_d 1).
  split; [vm_compute; reflexivity|]. exists [EvStart 1 APP (ex_q 1); EvSendI 1; EvData (ex_d 1)], [], []. reflexivity.
Qed.
(* PendingInterestHandle::cancel takes effect when the io_context runs: until then the Interest can be answered. *)
Theorem C38_cancel_is_deferred : exists acts s h, face_reached true (acts ++ [ACancel 1; AData (ex_d 1) None]) s h /\ In (EvCbData 1 (ex_d 1)) h /\
  exists s0 h0, face_reached true (acts ++ [ACancel 1]) s0 h0 /\ ~ In (EvCbData 1 (ex_d 1)) h0.
Proof.
  exists [AExpress (ex_q 1) false; ARun None]. do 2 eexists. split; [vm_compute; reflexivity|]. split; [cbn; tauto|].
  do 2 eexists. split; [vm_compute; reflexivity|]. cbn. intros [X|[X|[]]]; discriminate.
Qed.
Print Assumptions C38_at_most_one_answer.
Print Assumptions C38_answers_expressed.
Print Assumptions C38_started_once.
Print Assumptions C38_no_answer_after_removal.
Print Assumptions C38_no_answer_after_removeAll.
Print Assumptions C38_refuted_throwing_callback.
Print Assumptions C38_cancel_is_deferred.

(* ================= C39 ================= *)
Lemma pending_filter : forall s s' (f : qint -> bool), fc_pit s' = filter (fun e => f (f_q e)) (fc_pit s) ->
  forall id o q, pending s' id o q <-> pending s id o q /\ f q = true.
Proof.
  intros s s' f E id o q. unfold pending. rewrite E. split.
  - intros (e & A & B & C & D). apply (filter_In (fun e => f (f_q e))) in A. destruct A as [A A']. split; [exists e; auto | rewrite <- D; exact A'].
  - intros [(e & A & B & C & D) F]. exists e. splits; auto. apply (filter_In (fun e => f (f_q e))). split; [exact A | rewrite D; exact F].
Qed.
Lemma hit_ids : forall s h d, RI s h -> NoDup (map f_id (filter (appHit d) (fc_pit s))) /\
  forall id, In id (map f_id (filter (appHit d) (fc_pit s))) <-> exists q, pending s id APP q /\ q_accepts q d.
Proof.
  intros s h d R. split.
  - pose proof (psorted_filter (appHit d) _ (r_sorted _ _ R)) as P. induction (filter (appHit d) (fc_pit s)) as [|e l IH]; cbn; [constructor|].
    apply psorted_cons in P. destruct P as [P1 P2]. constructor; [|auto]. intro X. apply in_map_iff in X. destruct X as (y & A & B). specialize (P2 _ B). lia.
  - intro id. rewrite in_map_iff. unfold pending. split.
    + intros (e & <- & X). apply (filter_In (appHit d)) in X. destruct X as [X Y]. unfold appHit in Y. apply andb_true_iff in Y. destruct Y as [Y Z].
      exists (f_q e). split; [exists e; splits; auto; destruct (f_origin e); [reflexivity | discriminate] | apply q_matches_iff; exact Y].
    + intros (q & (e & A & B & C & D) & F). exists e. split; [exact B|]. apply (filter_In (appHit d)). split; [exact A|]. unfold appHit. rewrite D, C, (proj2 (q_matches_iff q d) F). reflexivity.
Qed.
Lemma any_hit : forall s d (hit : pkt -> pend -> bool) o, (forall e, hit d e = q_matches (f_q e) d && match f_origin e, o with APP, APP | FORWARDER, FORWARDER => true | _, _ => false end) ->
  existsb (hit d) (fc_pit s) = true <-> exists id q, pending s id o q /\ q_accepts q d.
Proof.
  intros s d hit o Hh. rewrite existsb_exists. unfold pending. split.
  - intros (e & A & B). rewrite Hh in B. apply andb_true_iff in B. destruct B as [B C]. exists (f_id e), (f_q e). split; [exists e; splits; auto; destruct (f_origin e), o; congruence | apply q_matches_iff; exact B].
  - intros (id & q & (e & A & B & C & D) & F). exists e. split; [exact A|]. rewrite Hh, D, C, (proj2 (q_matches_iff q d) F). destruct o; reflexivity.
Qed.
(* A Data, received or put, invokes the data callbacks of exactly the application's pending Interests that it
   matches, once each; exactly the Interests it does not match remain pending.  A put Data is sent to the forwarder
   iff an Interest of the forwarder matched or no Interest of the application did; a received one is not. *)
Theorem C39_data_reaches_matching : forall acts s h a d s' ev,
  face_reached true acts s h -> hears_data s a d -> fc_step true a s = Ok (s', ev) ->
  exists l t, ev = EvData d :: map (fun id => EvCbData id d) l ++ t /\
    NoDup l /\ (forall id, In id l <-> exists q, pending s id APP q /\ q_accepts q d) /\
    (forall id o q, pending s' id o q <-> pending s id o q /\ ~ q_accepts q d) /\
    (t = [] \/ t = [EvSendData d]) /\
    (t = [EvSendData d] <-> a = ARun None /\
      ((exists id q, pending s id FORWARDER q /\ q_accepts q d) \/ ~ exists id q, pending s id APP q /\ q_accepts q d)).
Proof.
  intros acts s h a d s' ev H HD E. pose proof (reach_RI _ _ _ H) as R. destruct (hit_ids s h d R) as [N1 N2].
  pose proof (satisfy_throw d (fc_pit s)) as T. destruct (satisfy_nothrow d (fc_pit s) None T) as (P1 & P2 & P3 & P4).
  assert (PD : forall s2, fc_pit s2 = sa_pit (satisfy d None (fc_pit s)) -> forall id o q, pending s2 id o q <-> pending s id o q /\ ~ q_accepts q d).
  { intros s2 X id o q. rewrite P1 in X. rewrite (pending_filter s s2 (fun q => negb (q_matches q d)) X). rewrite <- q_matches_iff. destruct (q_matches q d); cbn; intuition congruence. }
  assert (EV : sa_ev (satisfy d None (fc_pit s)) = map (fun id => EvCbData id d) (map f_id (filter (appHit d) (fc_pit s)))) by (rewrite P2, map_map; reflexivity).
  destruct HD as [->|(rest & -> & EQ)]; cbn [fc_step] in E.
  - apply Ok_inj in E. unfold fi_data, fc_finish in E. rewrite T in E. cbn in E. injection E as <- <-.
    exists (map f_id (filter (appHit d) (fc_pit s))), []. rewrite app_nil_r, <- EV. splits; auto. split; [discriminate | intros [X _]; discriminate].
  - rewrite EQ in E. cbn [run_task bind] in E. apply Ok_inj in E. unfold fi_putData in E. cbn [fc_pit] in E. rewrite T, P3, P4 in E.
    exists (map f_id (filter (appHit d) (fc_pit s))). rewrite <- EV.
    assert (SEND : existsb (fwdHit d) (fc_pit s) || negb (existsb (appHit d) (fc_pit s)) = true <->
      ((exists id q, pending s id FORWARDER q /\ q_accepts q d) \/ ~ exists id q, pending s id APP q /\ q_accepts q d)).
    { rewrite orb_true_iff, negb_true_iff, <- not_true_iff_false, (any_hit s d fwdHit FORWARDER), (any_hit s d appHit APP); [reflexivity| |]; intro e; unfold fwdHit, appHit; destruct (f_origin e); reflexivity. }
    destruct (existsb (fwdHit d) (fc_pit s) || negb (existsb (appHit d) (fc_pit s))); cbn [negb fc_finish andb] in E; injection E as <- <-.
    + exists [EvSendData d]. splits; auto. split; [intros _; split; [reflexivity | apply SEND; reflexivity] | reflexivity].
    + exists []. rewrite app_nil_r. splits; auto. split; [discriminate | intros [_ X]; apply SEND in X; discriminate].
Qed.
(* an own Interest (2 components), a forwarder's Interest for the same name, another name; Data for the first two *)
Definition ex_st (acts : list fact) : face := match fc_run true acts fc_init with Ok (s, _) => s | Err _ => fc_init end.
Definition ex_log (acts : list fact) : list fev := match fc_run true acts fc_init with Ok (_, h) => h | Err _ => [] end.
Definition ex_acts39 : list fact :=
  [AExpress (ex_q 1) false; AExpress (ex_q 2) false; AExpress (ex_q 1) false; ARun None; ARun None; ARun None; AInterest (ex_q 1) None; APutData (ex_d 1) false].
Example C39_ex : exists s', hears_data (ex_st ex_acts39) (ARun None) (ex_d 1) /\
  fc_step true (ARun None) (ex_st ex_acts39) = Ok (s', [EvData (ex_d 1); EvCbData 1 (ex_d 1); EvCbData 3 (ex_d 1); EvSendData (ex_d 1)]) /\ map f_id (fc_pit s') = [2].
Proof. eexists. split; [right; eexists; split; vm_compute; reflexivity|]. split; vm_compute; reflexivity. Qed.
(* If a callback throws, later matching Interests get no callback. *)
Theorem C39_refuted_throwing_callback : exists acts s h d s' ev id q, face_reached true acts s h /\
  fc_step true (AData d (Some 0%nat)) s = Ok (s', ev) /\ pending s id APP q /\ q_accepts q d /\ ~ In (EvCbData id d) ev.
Proof.
  exists [AExpress (ex_q 1) false; AExpress (ex_q 1) false; ARun None; ARun None]. do 2 eexists. exists (ex_d 1). do 2 eexists. exists 2, (ex_q 1).
  split; [vm_compute; reflexivity|]. split; [vm_compute; reflexivity|].
  split; [eexists; split; [right; left; reflexivity | splits; reflexivity]|].
  split; [right; right; split; [reflexivity | exists [ex_key 1]; reflexivity]|]. intros [X|[X|[X|[]]]]; discriminate.
Qed.
Print Assumptions C39_data_reaches_matching.
Print Assumptions C39_refuted_throwing_callback.

(* ================= C40 ================= *)
(* When the nack callback of an Interest runs, as many Nacks for it have been processed since it was expressed as it
   had destinations, and the reason reported is the least severe of theirs.
   Partial: the Nacks are counted, not attributed to the destinations. *)
Theorem C40_nack_sound_partial : forall acts s h a b id r,
  face_reached true acts s h -> h = a ++ EvCbNack id r :: b ->
  exists a0 q rest l, a = a0 ++ EvStart id APP q :: rest /\ nacks q rest l /\ length l = dests id rest /\ least_severe r l.
Proof.
  intros acts s h a b id r H E.
  destruct (reach_split _ _ _ _ _ _ H E) as (acts1 & act & s1 & h1 & s2 & ev & x & y & h3 & _ & St & _ & _ & R1 & EV & -> & _).
  destruct (step_cb _ _ _ _ _ _ _ _ _ R1 St EV) as (q & r0 & e & x' & -> & X & In1 & <- & (Q & O & (e' & RN))).
  assert (I : idle e x') by (apply cbev_idle; right; exact X).
  destruct (K_nack e h1 r0 e' (Some r) x' (r_K _ _ R1 _ In1) RN I) as (a0 & b0 & l & least & F1 & F2 & F3 & F4 & F5 & F6 & F7 & F8 & _ & F9).
  rewrite Q, O in *. exists a0, q, (b0 ++ EvNack q r0 :: x'), (l ++ [r0]). splits; auto.
  - destruct (0 <? f_nn e')%Z eqn:EP; [discriminate|].
    unfold recordNack in RN. destruct (_ <? 0)%Z eqn:EZ; [discriminate|]. rewrite F4. injection RN as <- _. cbn [f_nn] in *. rewrite app_length in *. cbn [length] in *. lia.
  - destruct (0 <? f_nn e')%Z; [discriminate|]. injection F9 as ->. exact F8.
Qed.
(* Conversely, a Nack for a pending Interest of the application invokes its nack callback if it is the last one
   outstanding; otherwise the Interest stays pending and gets no answer. *)
Theorem C40_nack_complete_partial : forall acts s h a id q r s' ev,
  face_reached true acts s h -> pending s id APP q -> hears_nack s a q r -> fc_step true a s = Ok (s', ev) ->
  exists a0 rest l, h = a0 ++ EvStart id APP q :: rest /\ nacks q rest l /\ (length l < dests id rest)%nat /\
    (S (length l) = dests id rest -> (exists r', In (EvCbNack id r') ev /\ least_severe r' (l ++ [r])) /\ ~ exists o q', pending s' id o q') /\
    ((S (length l) < dests id rest)%nat -> pending s' id APP q /\ forall e, In e ev -> ~ answers id e).
Proof.
  intros acts s h a id q r s' ev H (e & P1 & P2 & P3 & P4) HN E. pose proof (reach_RI _ _ _ H) as R.
  assert (X : exists n tail, nackPend q r None (fc_pit s) = Ok n /\ fc_pit s' = na_pit n /\ ev = EvNack q r :: na_ev n ++ tail /\ quiet tail).
  { destruct HN as [->|(rest & -> & EQ)]; cbn [fc_step] in E.
    - destruct (fi_nack q r None s) as [o|] eqn:EO; [|discriminate]. cbn [bind] in E. unfold fi_nack in EO.
      destruct (nackPend q r None (fc_pit s)) as [n|] eqn:EN; [|discriminate]. injection EO as <-. apply Ok_inj in E. cbn in E. rewrite (nack_out _ _ _ _ _ R EN) in E. cbn in E. injection E as <- <-.
      exists n, []. rewrite app_nil_r. splits; auto. intros z [].
    - rewrite EQ in E. cbn [run_task bind] in E. unfold fi_putNack in E. cbn [fc_pit] in E.
      destruct (nackPend q r None (fc_pit s)) as [n|] eqn:EN; [|discriminate]. cbn [bind] in E. rewrite (nack_out _ _ _ _ _ R EN) in E.
      exists n. destruct (na_out n) as [r'|]; cbn [bind] in E; apply Ok_inj in E; cbn in E; injection E as <- <-.
      + exists [EvSendNack q r']. splits; auto. intros z [<-|[]]. eauto.
      + exists []. rewrite app_nil_r. splits; auto. intros z []. }
  destruct X as (n & tail & EN & EP & -> & Qt). pose proof (nack_out _ _ _ _ _ R EN) as T.
  destruct (nack_spec _ _ _ _ _ EN (r_sorted _ _ R)) as (S1 & S2 & S3 & S4). destruct (S4 T) as (D1 & D2 & D3).
  destruct (nack_ok_rec _ _ _ _ _ _ EN T P1 P4) as ([e' o] & RN).
  destruct (K_nack e h r e' o [] (r_K _ _ R _ P1) RN) as (a0 & b0 & l & least & F1 & F2 & F3 & F4 & F5 & F6 & F7 & F8 & F9 & F10); [intros z []|].
  destruct (r_K _ _ R _ P1) as (_ & _ & _ & _ & _ & _ & _ & POS). specialize (POS P3).
  assert (ENN : f_nn e' = (f_nn e - 1)%Z) by (unfold recordNack in RN; destruct (_ <? 0)%Z; [discriminate|]; injection RN as <- _; reflexivity).
  rewrite P2, P3, P4 in *. exists a0, b0, l. splits; auto.
  - lia.
  - intro L. assert (f_nn e' = 0)%Z by lia. rewrite (proj2 (Z.ltb_ge 0 (f_nn e')) ltac:(lia)) in F10. subst o.
    assert (C : In (EvCbNack id least) (na_ev n)).
    { rewrite <- P2. apply D2; [exact P1|]. split; [exact P4|]. split; [exact P3|]. eauto. }
    split.
    + exists least. split; [right; apply in_or_app; left; exact C | exact F8].
    + intros (o' & q' & y & Y1 & Y2 & _). apply (D3 id); [eapply answers_in; [exact C | right; left; eauto]|]. rewrite <- EP, <- Y2. apply in_map; exact Y1.
  - intro L. assert (0 < f_nn e')%Z by lia. rewrite (proj2 (Z.ltb_lt 0 (f_nn e')) ltac:(lia)) in F10. subst o.
    destruct (recordNack_id _ _ _ _ RN) as (I1 & I2 & I3).
    assert (Pin : In e' (na_pit n)) by (apply D1; exists e; split; [exact P1 | right; split; [exact P4 | exact RN]]).
    split.
    + exists e'. rewrite EP. splits; auto; congruence.
    + intros z Z A. assert (C : In id (cbs (EvNack q r :: na_ev n ++ tail))) by (eapply answers_in; [exact Z | exact A]).
      cbn in C. rewrite cbs_app, (quiet_cbs _ Qt), app_nil_r in C. apply (D3 id C). rewrite <- P2, <- I1. apply in_map; exact Pin.
Qed.
(* sent to the forwarder and to a local filter: the second Nack is reported, with the less severe of the two reasons *)
Definition ex_acts40 : list fact :=
  [ASetFilter (mkFilt [ex_key 97] None true); AExpress (ex_q 1) false; ARun None; ARun None; ANack (ex_q 1) 50 None; APutNack (ex_q 1) 100 false].
Example C40_ex : hears_nack (ex_st ex_acts40) (ARun None) (ex_q 1) 100 /\ pending (ex_st ex_acts40) 1 APP (ex_q 1) /\
  exists s', fc_step true (ARun None) (ex_st ex_acts40) = Ok (s', [EvNack (ex_q 1) 100; EvCbNack 1 50]).
Proof.
  split; [right; eexists; split; vm_compute; reflexivity|]. split; [eexists; split; [left; reflexivity | splits; reflexivity]|]. eexists. vm_compute. reflexivity.
Qed.
(* The full statement is false: two Nacks from one destination (the forwarder) are taken for those of two, and the
   Interest is nacked although the local filter has not answered. *)
Theorem C40_refuted_same_destination : exists acts s h, face_reached true acts s h /\ In (EvSendI 1) h /\ In (EvFilter 1 1) h /\ In (EvCbNack 1 50) h /\
  (forall a, In a acts -> forall q r big, a <> APutNack q r big).
Proof.
  exists [ASetFilter (mkFilt [ex_key 97] None true); AExpress (ex_q 1) false; ARun None; ARun None; ANack (ex_q 1) 50 None; ANack (ex_q 1) 100 None].
  do 2 eexists. split; [vm_compute; reflexivity|]. splits; [cbn; tauto | cbn; tauto | cbn; tauto|].
  intros a Ha q r big X. subst a. repeat (destruct Ha as [Ha|Ha]; [discriminate|]). destruct Ha.
Qed.
(* A Nack for an incoming Interest that no filter took violates an assertion (in release builds the counter becomes
   negative). *)
Theorem C40_refuted_assertion : exists acts s h q r, face_reached true acts s h /\ fc_step true (ANack q r None) s = Err EAssert.
Proof. exists [AInterest (ex_q 1) None]. do 2 eexists. exists (ex_q 1), 50. split; vm_compute; reflexivity. Qed.
Print Assumptions C40_nack_sound_partial.
Print Assumptions C40_nack_complete_partial.
Print Assumptions C40_refuted_same_destination.
Print Assumptions C40_refuted_assertion.

(* ================= C41 ================= *)
Lemma dispatch_ids : forall s h id o n, RI s h -> exists l, snd (fst (dispatch id o n None (fc_filters s))) = map (fun fid => EvFilter fid id) l /\
  NoDup l /\ forall fid, In fid l <-> exists f, In (fid, f) (fc_filters s) /\ for_filter f o n.
Proof.
  intros s h id o n R. destruct (dispatch_spec id o n (fc_filters s) None) as (m & A & _ & B). cbn in A. specialize (B (dispatch_throw id o n (fc_filters s))).
  rewrite firstn_all2 in A by (rewrite map_length; exact B).
  exists (map fst (filter (fun x => fl_matches (snd x) o n) (fc_filters s))). rewrite map_map. splits; [exact A | |].
  - destruct (r_filt _ _ R) as [N _]. assert (N' : NoDup (map fst (fc_filters s))) by (clear - N; induction (map fst (fc_filters s)) as [|x l IH]; [constructor|]; cbn in N; inversion N; subst; constructor; [intro X; apply H1; apply in_or_app; auto | auto]).
    clear - N'. induction (fc_filters s) as [|x l IH]; cbn; [constructor|]. cbn in N'. inversion N'; subst. destruct (fl_matches (snd x) o n); cbn; [|auto].
    constructor; [|auto]. intro X. apply H1. apply in_map_iff in X. destruct X as (y & Y1 & Y2). rewrite <- Y1. apply in_map. apply (filter_In (fun x => fl_matches (snd x) o n)) in Y2. tauto.
  - intro fid. rewrite in_map_iff. split.
    + intros ([i f] & <- & X). apply (filter_In (fun x => fl_matches (snd x) o n)) in X. exists f. destruct X as [X1 X2]. split; [exact X1 | apply fl_matches_iff; exact X2].
    + intros (f & X1 & X2). exists (fid, f). split; [reflexivity|]. apply (filter_In (fun x => fl_matches (snd x) o n)). split; [exact X1 | apply fl_matches_iff; exact X2].
Qed.
(* An incoming Interest invokes exactly the filters it is for, once each. *)
Theorem C41_incoming : forall acts s h q, face_reached true acts s h ->
  exists s' id l, fc_step true (AInterest q None) s = Ok (s', EvStart id FORWARDER q :: map (fun fid => EvFilter fid id) l) /\
    NoDup l /\ forall fid, In fid l <-> exists f, In (fid, f) (fc_filters s) /\ for_filter f FORWARDER (q_name q).
Proof.
  intros acts s h q H. pose proof (reach_RI _ _ _ H) as R.
  assert (NI : ~ In (fc_last s + 1) (ids (fc_pit s))).
  { intro X. apply in_map_iff in X. destruct X as (e & E & X). pose proof (r_ids _ _ R _ X). lia. }
  destruct (pit_put_ok (mkPend (fc_last s + 1) q FORWARDER 0 None true) (fc_pit s) (r_sorted _ _ R) NI) as (p & P1 & P2 & P3).
  destruct (dispatch_ids s h (fc_last s + 1) FORWARDER (q_name q) R) as (l & A & B & C).
  cbn [fc_step]. unfold fi_incoming. rewrite P1. cbn [bind]. pose proof (dispatch_throw (fc_last s + 1) FORWARDER (q_name q) (fc_filters s)) as T.
  destruct (dispatch _ _ _ _ _) as [[c ev] t]. cbn in A, T. subst ev t. do 2 eexists. exists l. cbn. splits; [reflexivity | exact B | exact C].
Qed.
(* An application's own Interest is sent to the forwarder and to exactly the filters it is for, which allow loopback. *)
Theorem C41_own_interest : forall acts s h id q rest, face_reached true acts s h -> fc_queue s = TExpress id q false :: rest ->
  exists s' l, fc_step true (ARun None) s = Ok (s', EvStart id APP q :: EvSendI id :: map (fun fid => EvFilter fid id) l) /\
    NoDup l /\ (forall fid, In fid l <-> exists f, In (fid, f) (fc_filters s) /\ for_filter f APP (q_name q)) /\
    (forall fid, In fid l -> exists f, In (fid, f) (fc_filters s) /\ fl_loop f = true).
Proof.
  intros acts s h id q rest H EQ. pose proof (reach_RI _ _ _ H) as R.
  assert (X0 : In id (exprs (fc_queue s))) by (rewrite EQ; left; reflexivity). destruct (r_queue _ _ R _ X0) as (_ & NI & _).
  destruct (pit_put_ok (mkPend id q APP 1 None true) (fc_pit s) (r_sorted _ _ R) NI) as (p & P1 & P2 & P3).
  destruct (dispatch_ids s h id APP (q_name q) R) as (l & A & B & C).
  cbn [fc_step]. rewrite EQ. cbn [run_task]. unfold fi_express. cbn [fc_pit fc_filters]. rewrite P1. cbn [bind]. pose proof (dispatch_throw id APP (q_name q) (fc_filters s)) as T.
  destruct (dispatch _ _ _ _ _) as [[c ev] t]. cbn in A, T. subst ev t. eexists. exists l. cbn. splits; [reflexivity | exact B | exact C|].
  intros fid X. apply C in X. destruct X as (f & X1 & X2 & _). exists f; auto.
Qed.
(* The table of filters is what setInterestFilter and the handles made it. *)
Theorem C41_filter_table : forall s rest k s' ev,
  (forall id f, fc_queue s = TSetFilter id f :: rest -> fc_step true (ARun k) s = Ok (s', ev) -> forall x, In x (fc_filters s') <-> In x (fc_filters s) \/ x = (id, f)) /\
  (forall id, fc_queue s = TUnset id :: rest -> fc_step true (ARun k) s = Ok (s', ev) -> forall x, In x (fc_filters s') <-> In x (fc_filters s) /\ fst x <> id).
Proof.
  intros s rest k s' ev. split.
  - intros id f EQ H x. cbn [fc_step] in H. rewrite EQ in H. cbn in H. injection H as <- _. cbn. rewrite in_app_iff. cbn. intuition congruence.
  - intros id EQ H x. cbn [fc_step] in H. rewrite EQ in H. cbn in H. injection H as <- _. cbn. rewrite (filter_In (fun y => negb (fst y =? id))). split; intros [A B]; split; auto; lia.
Qed.
Definition ex_acts41 : list fact :=
  [ASetFilter (mkFilt [ex_key 97] None true); ASetFilter (mkFilt [ex_key 97] None false); ASetFilter (mkFilt [ex_key 98] None true);
   ASetFilter (mkFilt [] (Some (fun l => Nat.eqb (length l) 2)) true); ARun None; ARun None; ARun None; ARun None; AExpress (ex_q 1) false].
Example C41_ex : (exists s', fc_step true (AInterest (ex_q 1) None) (ex_st ex_acts41) = Ok (s', [EvStart 2 FORWARDER (ex_q 1); EvFilter 1 2; EvFilter 2 2; EvFilter 4 2])) /\
  (exists s', fc_step true (ARun None) (ex_st ex_acts41) = Ok (s', [EvStart 1 APP (ex_q 1); EvSendI 1; EvFilter 1 1; EvFilter 4 1])) /\
  exists rest, fc_queue (ex_st ex_acts41) = TExpress 1 (ex_q 1) false :: rest.
Proof. split; [eexists; vm_compute; reflexivity|]. split; [eexists; vm_compute; reflexivity|]. eexists. vm_compute. reflexivity. Qed.
Print Assumptions C41_incoming.
Print Assumptions C41_own_interest.
Print Assumptions C41_filter_table.

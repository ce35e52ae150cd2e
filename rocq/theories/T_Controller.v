(* C88: the answer to a management command.  C89: the reports of commands.  C90: the reports of datasets. *)
From Coq Require Import Lia ZifyBool ZifyNat ZifyN ZArith.
From Verif Require Import Base BaseLemmas M_Tlv S_Tlv P_Tlv P_Block M_Str M_Name S_Name P_Data M_Control S_Control P_Control T_Control M_NfdData S_NfdData P_NfdData4 T_NfdData M_Controller S_Controller P_Controller P_Controller2.
Open Scope N_scope.
Open Scope list_scope.

(* C88.  A validated answer to a command, whatever its octets: success with the parameters of the body, exactly if the Content is a control
   response with a code below 400 and proper parameters; failure with that response if its code is 400 or more; failure 500 for all others *)
Theorem C88_response : forall c content,
  (forall p, ct_response c content = CSuccess p <-> exists r, responds content r /\ succeeds c r p) /\
  (forall code r, ct_response c content = CFail code (Some r) <-> responds content r /\ cr_code r = code /\ 400 <= code) /\
  (forall code, ct_response c content = CFail code None <-> code = 500 /\ forall r, responds content r -> cr_code r < 400 /\ forall p, ~ succeeds c r p) /\
  (forall x, ct_response c content <> CThrow x).
Proof.
  intros c content. destruct (response_cases c content) as [(r & p & R & S1 & E)|[(r & R & L & E)|[N E]]]; rewrite E.
  - splits; try discriminate.
    + intro q. split; [intro X; injection X as <-; eauto|]. intros (r' & R' & S'). rewrite (responds_fun _ _ _ R' R) in S'. now rewrite (succeeds_fun _ _ _ _ S' S1).
    + intros code r'. split; [discriminate|]. intros (R' & <- & L). rewrite (responds_fun _ _ _ R' R) in L. destruct S1 as [S1 _]. lia.
    + intro code. split; [discriminate|]. intros [_ Q]. destruct (Q r R) as [_ Q']. now elim (Q' p).
  - splits; try discriminate.
    + intro p. split; [discriminate|]. intros (r' & R' & S' & _). rewrite (responds_fun _ _ _ R' R) in S'. lia.
    + intros code r'. split; [intro X; injection X as <- <-; auto|]. intros (R' & <- & _). now rewrite (responds_fun _ _ _ R' R).
    + intro code. split; [discriminate|]. intros [_ Q]. destruct (Q r R) as [Q' _]. lia.
  - splits; try discriminate.
    + intro p. split; [discriminate|]. intros (r & R & S'). destruct (N r R) as [_ Q]. now elim (Q p).
    + intros code r. split; [discriminate|]. intros (R & <- & L). destruct (N r R). lia.
    + intro code. split; [intro X; injection X as <-; auto|]. intros [-> _]. reflexivity.
Qed.
Print Assumptions C88_response.

Lemma same_has : forall p q f, same_params q p -> (has f q <-> has f p).
Proof. intros p q f H. specialize (H f). unfold has. destruct (cp_val q f) as [v|], (cp_val p f) as [w|]; cbn in H; try contradiction; split; intros [x X]; eauto; try discriminate. destruct v; contradiction. Qed.
Lemma same_num : forall p q f n, same_params q p -> (cp_val q f = Some (VNum n) <-> cp_val p f = Some (VNum n)).
Proof. intros p q f n H. specialize (H f). destruct (cp_val q f) as [v|], (cp_val p f) as [w|]; cbn in H; try contradiction; try (destruct v; contradiction); try tauto. destruct v, w; try contradiction; try (rewrite H; tauto); split; discriminate. Qed.
Lemma same_proper : forall c p q, same_params q p -> (proper c q <-> proper c p).
Proof.
  intros c p q H. unfold proper, accepts. assert (HF := fun f => same_has p q f H).
  assert (A : ((forall f, In f (fst (response_fields c)) -> has f q) /\ (forall f, has f q -> In f (fst (response_fields c)) \/ In f (snd (response_fields c))) /\ (In FFlags (snd (response_fields c)) -> In FMask (snd (response_fields c)) -> (has FFlags q <-> has FMask q))) <->
              ((forall f, In f (fst (response_fields c)) -> has f p) /\ (forall f, has f p -> In f (fst (response_fields c)) \/ In f (snd (response_fields c))) /\ (In FFlags (snd (response_fields c)) -> In FMask (snd (response_fields c)) -> (has FFlags p <-> has FMask p)))).
  { split; intros (A1 & A2 & A3); (splits; [intros f I; apply HF; auto|intros f I; apply A2, HF; auto|intros I J; specialize (A3 I J); pose proof (HF FFlags); pose proof (HF FMask); tauto]). }
  rewrite A. assert (NZ : forall f, nonzero f q <-> nonzero f p). { intro f. unfold nonzero. split; intros Z n X; apply Z; now apply (same_num p q f n H). }
  assert (NM : (forall n, cp_val q FName = Some (VName n) -> n_comps n <> []) <-> (forall n, cp_val p FName = Some (VName n) -> n_comps n <> [])).
  { specialize (H FName). destruct (cp_val q FName) as [v|], (cp_val p FName) as [w|]; cbn in H; try contradiction; try (destruct v; contradiction); [|tauto].
    destruct v, w; try contradiction; try (rewrite H; tauto). split; intros Z m X; injection X as <-; intro E; apply (Z _ eq_refl); unfold nkey in H; rewrite E in H; cbn in H; [apply map_eq_nil in H|symmetry in H; apply map_eq_nil in H]; exact H. }
  destruct c; cbn [response_cond]; rewrite ?NZ, ?NM; tauto.
Qed.

(* C88, end to end.  Whatever made the parameters and the response that a server encodes: the client gets the same parameters, or the same code and text;
   a server cannot make the client accept a response that is not proper *)
Theorem C88_end_to_end : forall c l p b p' lr r w r' content,
  Forall S_Control.op_ok l -> cp_run l cp_empty = Some p -> cp_encode p = Ok (b, p') ->
  Forall crop_ok lr -> cr_run lr cr_empty = Some r -> cr_body r = Some b -> cr_encode r = Ok (w, r') -> e_val content = e_wire w ->
  (400 <= cr_code r -> exists q, ct_response c content = CFail (cr_code r) (Some q) /\ cr_text q = cr_text r /\ cr_body q = cr_body r) /\
  (cr_code r < 400 -> proper c p -> exists q, ct_response c content = CSuccess q /\ same_params q p) /\
  (cr_code r < 400 -> ~ proper c p -> ct_response c content = CFail 500 None).
Proof.
  intros c l p b p' lr r w r' content F R E FR RR RB ER V. destruct (C88_response c content) as (A & B & C & _).
  destruct (C81_round_trip _ _ FR RR) as [[X _]|(e & c' & q & X & _ & _ & _ & BW & D & Q1 & Q2 & Q3)]; [congruence|]. rewrite ER in X. apply Ok_inj in X. injection X as <- <-.
  assert (RS : responds content q) by (exists w; rewrite V; auto).
  destruct (C59_round_trip _ _ F R) as [[X _]|(e & c' & q' & X & _ & _ & D' & SP)]; [congruence|]. rewrite E in X. apply Ok_inj in X. injection X as <- <-.
  splits.
  - intro L. exists q. splits; auto. apply B. splits; auto; lia.
  - intros L P. exists q'. split; auto. apply A. exists q. split; auto. split; [lia|]. exists b. splits; auto; [congruence|]. now apply (same_proper c p q').
  - intros L P. apply C. split; auto. intros r2 R2. rewrite (responds_fun _ _ _ R2 RS). split; [lia|]. intros p2 (_ & b' & B' & D2 & PR). rewrite Q3, RB in B'. injection B' as <-. rewrite D' in D2. injection D2 as <-. apply P. now apply (same_proper c p q').
Qed.
Print Assumptions C88_end_to_end.

(* C89.  Whatever happens, and whatever callbacks do: a command is reported at most once *)
Theorem C89_once : forall l s h id, ct_run l ct_new = (s, h) -> (length (reports id (outs h)) <= 1)%nat.
Proof. intros l s h id R. apply (c_once _ _ (run_invC _ _ [] _ _ invC_new R)). Qed.
Print Assumptions C89_once.
(* C89.  A report comes from an answer to that command, and goes to the callback for it: never to one that is empty *)
Theorem C89_justified : forall l s h h1 e o h2 id r, ct_run l ct_new = (s, h) -> h = h1 ++ (e, o) :: h2 -> In (OReport id r) o ->
  exists c k, In (OSend id c k) (outs h1) /\ answers h1 e id c r /\ goes_to k r.
Proof.
  intros l s h h1 e o h2 id r R E I. destruct (run_split _ _ _ _ _ _ _ _ R E) as (l1 & l2 & s1 & s2 & -> & R1 & S1 & R2).
  pose proof (run_invC _ _ [] _ _ invC_new R1) as IV. cbn [app] in IV. destruct (step_report _ _ _ _ _ _ _ IV S1 I) as (c & k & A & G & Q). exists c, k. splits; auto.
Qed.
Print Assumptions C89_justified.
(* C89.  Two commands are not confused: one identity stands for one request, and only the content that came for it is looked at *)
Theorem C89_distinct : forall l s h id, ct_run l ct_new = (s, h) ->
  (forall c k c' k', In (OSend id c k) (outs h) -> In (OSend id c' k') (outs h) -> c = c' /\ k = k') /\
  (forall x y, In (OValidate id x) (outs h) -> In (OValidate id y) (outs h) -> x = y).
Proof. intros l s h id R. pose proof (run_invC _ _ [] _ _ invC_new R) as IV. split; [exact (c_suniq _ _ IV id)|exact (c_vuniq _ _ IV id)]. Qed.
Print Assumptions C89_distinct.
Lemma call_first : forall x acts s, exists s' o, ct_call true x acts s = (s', x :: o).
Proof. intros x acts s. unfold ct_call. destruct (ct_acts acts s) as [s1 o1]. eauto. Qed.
Lemma report_first : forall id r acts s, (forall x, r <> CThrow x) -> exists s' o, ct_report id (mkCbs true true) r acts s = (s', OReport id r :: o).
Proof. intros id r acts s N. unfold ct_report. destruct r; cbn [cb_success cb_failure]; try apply call_first. now elim (N x). Qed.
(* C89.  No command is lost: as long as it is not reported, the next Nack, timeout or validation result for it is.  If the Controller is destroyed this still
   holds of Nacks and timeouts, and of the validation results *)
Theorem C89_not_lost : forall l s h id c, ct_run l ct_new = (s, h) -> ~ In OUb (outs h) -> In (OSend id c (mkCbs true true)) (outs h) -> reports id (outs h) = [] ->
  ((forall x, ~ In (OValidate id x) (outs h)) /\ forall acts t,
     (exists s' o, ct_step (EvNack id acts t) s = (s', OReport id (CFail 10800 None) :: o)) /\
     (exists s' o, ct_step (EvTimeout id acts t) s = (s', OReport id (CFail 10060 None) :: o)) /\
     forall x, ct_alive s = true -> exists s', ct_step (EvData id x) s = (s', [OValidate id x])) \/
  (exists x, In (OValidate id x) (outs h) /\ forall acts t,
     (exists s' o, ct_step (EvValidated id true acts t) s = (s', OReport id (ct_response c x) :: o)) /\
     (exists s' o, ct_step (EvValidated id false acts t) s = (s', OReport id (CFail 10021 None) :: o))).
Proof.
  intros l s h id c R U I N. pose proof (run_invC _ _ [] _ _ invC_new R) as IV. cbn [app] in IV.
  destruct (c_all _ _ IV _ _ _ I eq_refl eq_refl) as [Q|[Q|Q]]; [contradiction| |contradiction]. unfold cids in Q. apply in_app_iff in Q as [Q|Q]; apply in_map_iff in Q as (y & E & Q).
  - left. assert (X : exists k' c', find (fun x => is_id id (fst x)) (ct_pending s) = Some (id, c', k')).
    { destruct (find (fun x => is_id id (fst x)) (ct_pending s)) as [[[i c'] k']|] eqn:F; [apply find_pending in F as [-> _]; eauto|]. apply (find_none _ _ F) in Q. unfold is_id in Q. rewrite E, Nat.eqb_refl in Q. discriminate. }
    destruct X as (k' & c' & F). destruct (find_pending _ _ _ _ _ F) as [_ J]. destruct (c_pend _ _ IV _ _ _ J) as [S1 V1]. destruct (c_suniq _ _ IV _ _ _ _ _ I S1) as [<- <-]. split; [exact V1|].
    intros acts t. cbn [ct_step]. rewrite F. splits; try (apply report_first; discriminate). intros x AL. rewrite AL. eauto.
  - right. assert (X : exists k' c' x, find (fun x => is_id id (fst (fst x))) (ct_validating s) = Some (id, c', k', x)).
    { destruct (find (fun x => is_id id (fst (fst x))) (ct_validating s)) as [[[[i c'] k'] x]|] eqn:F; [apply find_validating in F as [-> _]; eauto|]. apply (find_none _ _ F) in Q. unfold is_id in Q. rewrite E, Nat.eqb_refl in Q. discriminate. }
    destruct X as (k' & c' & x & F). destruct (find_validating _ _ _ _ _ _ F) as [_ J]. destruct (c_val _ _ IV _ _ _ _ J) as [S1 V1]. destruct (c_suniq _ _ IV _ _ _ _ _ I S1) as [<- <-]. exists x. split; [exact V1|].
    intros acts t. cbn [ct_step]. rewrite F. split; apply report_first; [apply response_no_throw|discriminate].
Qed.
Print Assumptions C89_not_lost.

(* C90.  If no callback for a dataset throws, a dataset is reported at most once *)
Theorem C90_once : forall l s h id, Forall calm l -> ct_run l ct_new = (s, h) -> (length (dreports id (outs h)) <= 1)%nat.
Proof. intros l s h id C R. destruct (run_invE _ _ [] _ _ invD_new ltac:(split; intros i; cbn; [lia|intros []]) C R) as [A _]. apply A. Qed.
Print Assumptions C90_once.
(* C90.  A report comes from the retrieval of that dataset, with the code for what happened to it *)
Theorem C90_justified : forall l s h h1 e o h2 id r, ct_run l ct_new = (s, h) -> h = h1 ++ (e, o) :: h2 -> In (ODataset id r) o ->
  exists k, In (OFetch id k) (outs h1) /\ danswers e id r /\ dgoes_to k r.
Proof.
  intros l s h h1 e o h2 id r R E I. destruct (run_split _ _ _ _ _ _ _ _ R E) as (l1 & l2 & s1 & s2 & -> & R1 & S1 & R2).
  pose proof (run_invD _ _ [] _ _ invD_new R1) as IV. cbn [app] in IV. destruct (step_dataset _ _ _ _ _ _ _ IV S1 I) as (k & A & G & Q). exists k. splits; auto.
Qed.
Print Assumptions C90_justified.
(* C90.  No dataset is lost while the Controller exists: as long as it is not reported, the end of its retrieval is *)
Theorem C90_not_lost : forall l s h id, Forall known l -> ct_run l ct_new = (s, h) -> ct_alive s = true -> In (OFetch id (mkCbs true true)) (outs h) -> dreports id (outs h) = [] ->
  forall acts t,
  (exists s' o, ct_step (EvComplete id true acts t) s = (s', ODataset id None :: o)) /\
  (exists s' o, ct_step (EvComplete id false acts t) s = (s', ODataset id (Some 500) :: o)) /\
  forall code, 1 <= code <= 5 -> exists s' o, ct_step (EvError id code acts t) s = (s', ODataset id (dataset_code code) :: o).
Proof.
  intros l s h id K R AL I N acts t. pose proof (run_invD _ _ [] _ _ invD_new R) as IV. cbn [app] in IV.
  destruct (run_invF _ _ [] _ _ invD_new ltac:(intros i k []) K R id _ I eq_refl eq_refl AL) as [Q|Q]; [|contradiction].
  unfold rids in Q. apply in_map_iff in Q as (y & E & Q).
  assert (X : exists k', find (is_id id) (ct_running s) = Some (id, k')).
  { destruct (find (is_id id) (ct_running s)) as [[i k']|] eqn:F; [apply find_running in F as [-> _]; eauto|]. apply (find_none _ _ F) in Q. unfold is_id in Q. rewrite E, Nat.eqb_refl in Q. discriminate. }
  destruct X as (k' & F). destruct (find_running _ _ _ _ F) as [_ J]. pose proof (d_run _ _ IV _ _ J) as S1. assert (k' = mkCbs true true) as -> by (eapply (d_funiq _ _ IV); eauto).
  assert (EM : forall x, exists s' o, ct_emit id true x acts t s = (s', x :: o)).
  { intro x. unfold ct_emit. destruct (call_first x acts s) as (s1 & o1 & ->). destruct t; cbn [andb]; [eauto|]. unfold ct_erase. eexists _, _. reflexivity. }
  cbn [ct_step]. rewrite F. splits; try apply EM. intros code L. destruct (known_code code L) as (x & -> & ->). apply EM.
Qed.
Print Assumptions C90_not_lost.
(* C90.  What the Controller keeps are the retrievals that are going on *)
Theorem C90_released : forall l s h, ct_run l ct_new = (s, h) -> ct_set s = map fst (ct_running s).
Proof. intros l s h R. apply (d_set _ _ (run_invD _ _ [] _ _ invD_new R)). Qed.
Print Assumptions C90_released.
(* C90.  Destroying the Controller cancels the datasets, and nothing is sent any more; only commands are still answered *)
Theorem C90_destroyed : forall l1 l2 s1 h1 s2 h2, ct_run (l1 ++ [EvCall ADestroy]) ct_new = (s1, h1) -> ct_run l2 s1 = (s2, h2) ->
  forall x, In x (outs h2) -> match x with OReport _ _ | OUb => True | _ => False end.
Proof.
  intros l1 l2 s1 h1 s2 h2 R1 R2. pose proof (run_invD _ _ [] _ _ invD_new R1) as IV.
  assert (AL : ct_alive s1 = false).
  { clear - R1. revert R1. generalize ct_new. revert h1. induction l1 as [|e l1 IH]; intros h1 s0 R; cbn [app ct_run] in R.
    - destruct (ct_step (EvCall ADestroy) s0) as [t o] eqn:S1. injection R as <- _. cbn [ct_step] in S1. unfold ct_act in S1. destruct (ct_alive s0) eqn:A; injection S1 as <- _; auto.
    - destruct (ct_step e s0) as [t o]. destruct (ct_run (l1 ++ [EvCall ADestroy]) t) as [t2 h'] eqn:R'. injection R as <- _. eauto. }
  destruct (run_dead _ _ _ _ AL (d_dead _ _ IV AL) R2) as [_ X]. exact X.
Qed.
Print Assumptions C90_destroyed.

(* C90.  No undefined behaviour, if the Controller is not destroyed in a callback for a dataset and no Data comes for a command after it is destroyed *)
Theorem C90_defined_partial : forall l s h, ct_run l ct_new = (s, h) -> Forall outside l ->
  (forall l1 id x l2 s1 h1, l = l1 ++ EvData id x :: l2 -> ct_run l1 ct_new = (s1, h1) -> ct_alive s1 = true) -> ~ In OUb (outs h).
Proof.
  intros l s h R F DA I. unfold outs in I. apply in_flat_map in I as ([e o] & I & U). cbn [snd] in U. apply in_split in I as (h1 & h2 & E).
  destruct (run_split _ _ _ _ _ _ _ _ R E) as (l1 & l2 & s1 & s2 & EL & R1 & S1 & R2). pose proof (run_invD _ _ [] _ _ invD_new R1) as IV. cbn [app] in IV.
  apply (step_defined e s1 _ s2 o IV S1); auto.
  - rewrite Forall_forall in F. apply F. rewrite EL. apply in_app_iff. right. now left.
  - intros id x ->. eapply DA; eauto.
Qed.
Print Assumptions C90_defined_partial.
(* a command of a Controller that is destroyed is not cancelled: its Data is then handed to a validator that is reached through the Controller *)
Theorem C89_destroy_refuted : exists l s h, Forall outside l /\ ct_run l ct_new = (s, h) /\ In OUb (outs h).
Proof.
  exists [EvCall (AStart CsConfig (mkCbs true true) true); EvCall ADestroy; EvData 0 (mkBlock 21 [])]. eexists _, _. split; [repeat constructor|]. split; [reflexivity|]. cbn. tauto.
Qed.
Print Assumptions C89_destroy_refuted.
(* destroying the Controller in a callback for a dataset is undefined behaviour: the slot that runs next holds a pointer to it *)
Theorem C90_destroy_refuted : exists l s h, ct_run l ct_new = (s, h) /\ (forall id x, ~ In (EvData id x) l) /\ Forall calm l /\ In OUb (outs h).
Proof.
  exists [EvCall (AFetch (mkCbs true true)); EvComplete 0 true [ADestroy] false]. eexists _, _. split; [reflexivity|]. splits; [intros id x [Q|[Q|[]]]; discriminate|repeat constructor|cbn; tauto].
Qed.
Print Assumptions C90_destroy_refuted.
(* a callback that throws leaves the retrieval as it was: it stays in the Controller, and can be reported again *)
Theorem C90_throw_refuted : exists l s h, ct_run l ct_new = (s, h) /\ ~ In OUb (outs h) /\ dreports 0 (outs h) = [None; Some 10060].
Proof.
  exists [EvCall (AFetch (mkCbs true true)); EvComplete 0 true [] true; EvError 0 1 [] false]. eexists _, _. split; [reflexivity|]. split; [cbn; intuition discriminate|reflexivity].
Qed.
Print Assumptions C90_throw_refuted.

(* ---- examples ---- *)
Definition ct_params : list cpop := [CSet FCapacity (VNum 65536); CSet FFlags (VNum 3)].
Definition ct_body : elem := match cp_run ct_params cp_empty with Some p => match cp_encode p with Ok (e, _) => e | Err _ => mkBlock 0 [] end | None => mkBlock 0 [] end.
Definition ct_answer (code : N) (b : elem) : list crop := [CrCode code; CrText (str "OK"); CrBody b].
Definition ct_content (l : list crop) : elem := mkBlock 21 (match cr_run l cr_empty with Some r => match cr_encode r with Ok (e, _) => e_wire e | Err _ => [] end | None => [] end).
(* C88: success with these parameters; the same body with code 404; the same parameters are not proper for another command; no body; no response at all *)
Example C88_ex :
  (exists q, ct_response CsConfig (ct_content (ct_answer 200 ct_body)) = CSuccess q /\ cp_val q FCapacity = Some (VNum 65536) /\ cp_val q FFlags = Some (VNum 3) /\ cp_val q FName = None) /\
  (exists r, ct_response CsConfig (ct_content (ct_answer 404 ct_body)) = CFail 404 (Some r) /\ cr_text r = str "OK") /\
  ct_response FaceDestroy (ct_content (ct_answer 200 ct_body)) = CFail 500 None /\
  ct_response CsConfig (ct_content [CrCode 200]) = CFail 500 None /\ ct_response CsConfig (mkBlock 21 []) = CFail 500 None.
Proof. splits; try (eexists; split; [vm_compute; reflexivity|]; splits; vm_compute; reflexivity); vm_compute; reflexivity. Qed.
Example C88_end_ex : exists p p' r w r', Forall S_Control.op_ok ct_params /\ cp_run ct_params cp_empty = Some p /\ cp_encode p = Ok (ct_body, p') /\
  Forall crop_ok (ct_answer 200 ct_body) /\ cr_run (ct_answer 200 ct_body) cr_empty = Some r /\ cr_body r = Some ct_body /\ cr_encode r = Ok (w, r') /\ proper CsConfig p.
Proof.
  do 5 eexists. split; [repeat (apply (@Forall_cons cpop) || apply (@Forall_nil cpop)); vm_compute; reflexivity|]. split; [reflexivity|]. split; [vm_compute; reflexivity|].
  split; [apply (@Forall_cons crop); [vm_compute; reflexivity|]; apply (@Forall_cons crop); [exact Logic.I|]; apply (@Forall_cons crop); [|apply Forall_nil]; exists (e_wire ct_body); vm_compute; reflexivity|].
  split; [reflexivity|]. split; [reflexivity|]. split; [vm_compute; reflexivity|]. split; [|exact Logic.I]. unfold accepts. cbn [response_fields fst snd]. splits.
  - intros f [<-|[<-|[]]]; eexists; reflexivity.
  - intros f [v V]. left. destruct f; cbn in V; try discriminate; cbn; tauto.
  - intros [].
Qed.
(* C89: three commands, one without callbacks for success; the first is answered, and its callback starts another one; the second times out; a second answer
   to the first one does nothing; the Controller is destroyed while the last is pending, which is still reported *)
Definition ct_events (x : elem) : list cevent :=
  [EvCall (AStart CsConfig (mkCbs true true) true); EvCall (AStart FaceDestroy (mkCbs true true) true); EvCall (AStart CsConfig (mkCbs false true) true); EvCall (AStart CsErase (mkCbs true true) false);
   EvData 0 x; EvNack 0 [] false; EvTimeout 1 [] false; EvData 2 x; EvValidated 2 true [] false;
   EvValidated 0 true [AStart CsErase (mkCbs true true) true] true; EvValidated 0 false [] false; EvCall ADestroy; EvNack 3 [AFetch (mkCbs true true)] false].
Lemma ct_events_run : forall x q, ct_response CsConfig x = CSuccess q -> exists s h, ct_run (ct_events x) ct_new = (s, h) /\ ~ In OUb (outs h) /\ reports 0 (outs h) = [CSuccess q] /\ reports 1 (outs h) = [CFail 10060 None] /\
  reports 2 (outs h) = [] /\ reports 3 (outs h) = [CFail 10800 None] /\ In (OSend 3 CsErase (mkCbs true true)) (outs h).
Proof.
  intros x q E. eexists _, _. split.
  { unfold ct_events, ct_run, ct_step, ct_act, find, ct_pending, ct_validating, ct_new, is_id. cbn -[ct_response]. repeat (rewrite E; cbn -[ct_response]). reflexivity. }
  cbn. splits; try reflexivity; [intuition discriminate|tauto].
Qed.
Example C89_ex : exists s h q, ct_run (ct_events (ct_content (ct_answer 200 ct_body))) ct_new = (s, h) /\ ~ In OUb (outs h) /\ reports 0 (outs h) = [CSuccess q] /\ reports 1 (outs h) = [CFail 10060 None] /\ reports 2 (outs h) = [] /\
  reports 3 (outs h) = [CFail 10800 None] /\ In (OSend 3 CsErase (mkCbs true true)) (outs h).
Proof. destruct C88_ex as ((q & E & _) & _). destruct (ct_events_run _ _ E) as (s & h & H). exists s, h, q. exact H. Qed.
(* C90: three datasets; one is complete, and its callback asks for another; one fails; the Controller is destroyed while the others go on, and they are not reported *)
Definition ct_sets : list cevent :=
  [EvCall (AFetch (mkCbs true true)); EvCall (AFetch (mkCbs true true)); EvCall (AFetch (mkCbs true false)); EvComplete 0 true [AFetch (mkCbs true true)] false; EvComplete 0 true [] false; EvError 1 3 [] false;
   EvError 2 4 [] false; EvCall (AFetch (mkCbs true true)); EvComplete 3 false [] false; EvCall ADestroy; EvComplete 4 true [] false; EvCall (AFetch (mkCbs true true))].
Example C90_ex : exists s h, ct_run ct_sets ct_new = (s, h) /\ Forall calm ct_sets /\ Forall known ct_sets /\ Forall outside ct_sets /\ ~ In OUb (outs h) /\ ct_set s = [] /\
  dreports 0 (outs h) = [None] /\ dreports 1 (outs h) = [Some 10021] /\ dreports 2 (outs h) = [] /\ dreports 3 (outs h) = [Some 500] /\ dreports 4 (outs h) = [] /\ In (OFetch 4 (mkCbs true true)) (outs h).
Proof.
  eexists _, _. split; [vm_compute; reflexivity|]. split; [repeat constructor|]. split; [repeat (apply Forall_cons; [cbn; first [exact Logic.I|lia]|]); apply Forall_nil|].
  split; [repeat (apply Forall_cons; [cbn; intuition discriminate|]); apply Forall_nil|]. splits; try reflexivity; cbn; [intuition discriminate|tauto].
Qed.

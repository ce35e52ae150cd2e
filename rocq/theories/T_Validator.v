(* C49 and C50: the validator.  Specification: S_Validator.  The theorems hold for every verification function, every depth limit, every kind of fetcher, and
   all policies, whose answers may change from call to call. *)
From Coq Require Import List ZArith Lia ZifyBool ZifyNat ZifyN String.
From Verif Require Import Base BaseLemmas S_Name P_NameOrder M_Ims S_Ims P_Ims M_CertCache S_CertCache M_Anchors S_Anchors P_Anchors M_Validator S_Validator P_Validator P_Validator2.
Import ListNotations.
Open Scope list_scope.
Open Scope Z_scope.

(* Exactly one verdict.  At any time, a validation either has given exactly one verdict, after which nothing more happens for it, or has given none and waits
   for the reply to an Interest or for the end of a delay; nothing happens for a validation not yet started.  (The number of retries per certificate is an int:
   r = 2 ^ 31 - 1 always satisfies the hypothesis; the default is 3.) *)
Theorem C49_once : forall verify depth kind r l s outs, 0 <= r -> Forall (retries r) l -> run verify depth kind l vs_new = Ok (s, outs) -> forall i,
  if (i <? started l)%N then (number (is_verdict i) outs = 1%N /\ concluded i outs) \/ (number (is_verdict i) outs = 0%N /\ waits i outs)
  else number (about i) outs = 0%N.
Proof.
  intros verify depth kind r l s outs R0 F H i. pose proof (run_state _ _ _ _ _ _ _ R0 F H) as [Lt Inv]. specialize (Inv i). rewrite (next_run _ _ _ _ _ _ H) in *.
  assert (Sp : forall o, last_of (tr_of outs i) = Some o -> exists pre post, concat outs = pre ++ o :: post /\ about i o = true /\ forall x, In x post -> about i x = false).
  { intros o. unfold tr_of. generalize (concat outs). induction l0 as [|x l0 IH] using rev_ind; intro La; [discriminate|]. rewrite filter_app in La. cbn [filter] in La. destruct (about i x) eqn:A.
    - pose proof (last_snoc (filter (about i) l0) [] x) as Ls. cbn [app] in Ls. rewrite Ls in La. injection La as ->. exists l0, []. splits; auto. intros y [].
    - rewrite app_nil_r in La. destruct (IH La) as (pre & post & -> & Ao & No). exists pre, (post ++ [x]). rewrite <- app_assoc. splits; auto. intros y I. apply in_app_or in I. destruct I as [I|[<-|[]]]; auto. }
  assert (Vn : forall m, cnt (is_verdict i) (tr_of outs i) = Z.of_N m -> number (is_verdict i) outs = m).
  { intros m. unfold cnt, zlen, number, tr_of, nlen. assert (E : filter (is_verdict i) (filter (about i) (concat outs)) = filter (is_verdict i) (concat outs)).
    { generalize (concat outs). induction l0 as [|x l0 IH]; [reflexivity|]. cbn [filter]. destruct (about i x) eqn:A; cbn [filter]; rewrite IH; [reflexivity|]. destruct x; cbn [about is_verdict] in *; rewrite ?A; reflexivity. }
    rewrite E. lia. }
  unfold job_inv in Inv. destruct (job_find i (vs_jobs s)) as [j|] eqn:J.
  - assert (Li : (i < started l)%N) by (apply jfind_in in J as [A B]; apply Lt; apply in_map_iff; eauto). destruct (N.ltb_spec i (started l)); [|lia]. right. destruct Inv as (_ & V & _ & _ & Ph). split; [now apply Vn|]. destruct (vj_phase j).
    + destruct Ph as (_ & d & La). destruct (Sp _ La) as (pre & post & A & B & C). do 3 eexists. splits; eauto. reflexivity.
    + destruct Ph as (_ & _ & ms & La). destruct (Sp _ La) as (pre & post & A & B & C). do 3 eexists. splits; eauto. exact I.
  - destruct (i <? started l)%N.
    + left. destruct Inv as (V & _ & _ & _ & v & La). pose proof (Vn 1%N V) as V1. split; [exact V1|]. destruct (Sp _ La) as (pre & post & A & B & C). do 3 eexists. splits; [exact A| |exact C].
      unfold number in V1. rewrite A, filter_app in V1. cbn [filter is_verdict] in V1. rewrite N.eqb_refl, nlen_app in V1. assert (Z0 : nlen (filter (is_verdict i) pre) = 0%N) by (unfold nlen in *; cbn [length] in V1; lia).
      intros x Ix. destruct (is_verdict i x) eqn:Vx; [|reflexivity]. assert (In x (filter (is_verdict i) pre)) by (apply filter_In; auto). destruct (filter (is_verdict i) pre); [contradiction|]. unfold nlen in Z0. cbn [length] in Z0. lia.
    + unfold number. unfold tr_of in Inv. now rewrite Inv.
Qed.
Print Assumptions C49_once.

(* Bounded work: with depth limit d and at most r retries per certificate, a validation expresses at most d (r + 1) Interests through the infrastructure, as many
   towards the face the packet came from, and waits at most d r times. *)
Theorem C49_bound : forall verify depth kind r l s outs i, 0 <= r -> Forall (retries r) l -> run verify depth kind l vs_new = Ok (s, outs) ->
  Z.of_N (number (is_interest i true) outs) <= Z.of_N depth * (r + 1) /\ Z.of_N (number (is_interest i false) outs) <= Z.of_N depth * (r + 1) /\ Z.of_N (number (is_wait i) outs) <= Z.of_N depth * r.
Proof.
  intros verify depth kind r l s outs i R0 F H. pose proof (run_state _ _ _ _ _ _ _ R0 F H) as [_ Inv]. specialize (Inv i).
  assert (Sub : forall f, (forall x, f x = true -> about i x = true) -> Z.of_N (number f outs) = cnt f (tr_of outs i)).
  { intros f Hf. unfold cnt, zlen, number, tr_of, nlen. assert (E : filter f (filter (about i) (concat outs)) = filter f (concat outs)).
    { generalize (concat outs). induction l0 as [|x l0 IH]; [reflexivity|]. cbn [filter]. destruct (about i x) eqn:A; cbn [filter]; rewrite IH; [reflexivity|]. destruct (f x) eqn:Fx; [|reflexivity]. rewrite (Hf _ Fx) in A. discriminate. }
    rewrite E. lia. }
  assert (Hi : forall a x, is_interest i a x = true -> about i x = true) by (intros a [ | | | ]; cbn [is_interest about]; intros; try discriminate; lia).
  rewrite !Sub by (eauto; intros [ | | | ]; cbn [is_wait about]; intros; try discriminate; lia).
  unfold job_inv in Inv. destruct (job_find i (vs_jobs s)) as [j|].
  - destruct Inv as (_ & _ & D & _ & Ph). destruct (vj_phase j); [destruct Ph as [W _]; eapply (within_max depth i r _ _ 1)|destruct Ph as (_ & W & _); eapply (within_max depth i r _ _ 0)]; eauto; unfold zlen in *; lia.
  - destruct (i <? vs_next s)%N; [tauto|]. rewrite Inv. unfold cnt, zlen. cbn [filter length]. nia.
Qed.
Print Assumptions C49_bound.

(* No validation gets stuck: whatever it waits for (matching Data, a Nack or a timeout for its last Interest; the end of the delay), when this happens the
   validation goes on: it gives its verdict, expresses an Interest, or waits.  By C49_bound this cannot go on forever. *)
Theorem C49_answered : forall verify depth kind r l s outs e s' o i, 0 <= r -> Forall (retries r) (l ++ [e]) -> run verify depth kind l vs_new = Ok (s, outs) ->
  awaiting i outs e -> step verify depth kind e s = Ok (s', o) -> exists x, In x o /\ about i x = true.
Proof. intros. eapply answered; eauto. Qed.
Print Assumptions C49_answered.
(* and what a validation waits for exists: Data, a Nack, a timeout, or the end of a delay *)
Theorem C49_can_go_on : forall i outs, waits i outs -> forall en, (awaiting i outs (VNack i) /\ awaiting i outs (VTimeout en i)) \/ awaiting i outs (VWake en i).
Proof.
  intros i outs (pre & o & post & A & B & C & D) en. destruct o as [k v|k q d a|k ms|er]; try contradiction; [left; split|right]; exists pre; eexists; exists post; splits; eauto; cbn; subst; try reflexivity.
Qed.
Print Assumptions C49_can_go_on.

(* If the validator, its fetcher or its face goes away, the validations in progress give their verdict *)
Theorem C49_dropped : forall verify depth kind r l s outs i, 0 <= r -> Forall (retries r) l -> run verify depth kind l vs_new = Ok (s, outs) -> waits i outs ->
  exists s', step verify depth kind (VDrop i) s = Ok (s', [OVerdict i (VFail VE_IMPLEMENTATION)]).
Proof.
  intros verify depth kind r l s outs i R0 F H W. pose proof (run_state _ _ _ _ _ _ _ R0 F H) as [_ Inv]. specialize (Inv i). cbn [step]. destruct (job_find i (vs_jobs s)) as [j|] eqn:J; [eauto|]. exfalso. destruct W as (pre & o & post & A & B & C & D).
  assert (La : last_of (tr_of outs i) = Some o).
  { unfold tr_of. rewrite A, filter_app. cbn [filter]. rewrite B. assert (E0 : filter (about i) post = []).
    { clear - C. induction post as [|y post IH]; [reflexivity|]. cbn [filter]. rewrite (C y (or_introl eq_refl)). apply IH. intros z I. apply C. now right. }
    rewrite E0. apply (last_snoc (filter (about i) pre) []). }
  unfold job_inv in Inv. destruct (i <? vs_next s)%N; [|rewrite Inv in La; discriminate]. destruct Inv as (_ & _ & _ & _ & v & Lv). rewrite La in Lv. injection Lv as ->. exact D.
Qed.
Print Assumptions C49_dropped.

(* Nothing is undefined, and every call returns (the recursion through cached certificates ends), as long as clock readings are not close to 64-bit overflow *)
Theorem C49_defined : forall verify depth kind p l, Forall (in_range p) l -> exists s outs, run verify depth kind l vs_new = Ok (s, outs) /\ length outs = length l.
Proof. intros verify depth kind p l F. destruct (run_defined verify depth kind p l vs_new F (new_ready p)) as (s & outs & H & _ & Ln). eauto. Qed.
Print Assumptions C49_defined.

(* C50: a successful verdict for validation i is justified at the call that gives it: the packet was given to validate() as the i-th, the SignatureInfo of an Interest
   decodes, and either the policy bypassed validation, or it asked for a certificate and the packet is signed by a trusted certificate that satisfies the request
   (trust: S_Validator), or it has a digest signature and the policy asked for the name that stands for these. *)
Theorem C50_chain : forall verify depth kind l e s outs s' o i, Forall steady (l ++ [e]) -> run verify depth kind l vs_new = Ok (s, outs) -> step verify depth kind e s = Ok (s', o) ->
  In (OVerdict i VSuccess) o -> good verify (e :: rev l) i.
Proof.
  intros verify depth kind l e s outs s' o i F H St I. apply Forall_app in F as [F1 F2]. inversion F2 as [|? ? Fe _]; subst. pose proof (run_vinv _ _ _ _ _ _ F1 H) as Inv. destruct (step_vinv _ _ _ _ _ _ _ _ Fe Inv St) as [_ G]. auto.
Qed.
Print Assumptions C50_chain.

(* Conversely a packet signed by a trust anchor the policy asks for is accepted at once: the anchor was loaded with loadAnchor, and no other call loaded,
   removed or cleared an anchor of that name. *)
Theorem C50_anchor : forall verify depth kind l1 g c l2 s outs en p rq s' o, (0 < depth)%N -> Forall steady (l1 ++ VAnch (TAIns g c) :: l2 ++ [VStart en p]) ->
  (forall e, In e (l1 ++ l2 ++ [VStart en p]) -> ~ disturbs (ct_name c) e) -> run verify depth kind (l1 ++ [VAnch (TAIns g c)]) vs_new = Ok (s, outs ++ [[]]) ->
  (vp_isInterest p = true -> vp_sigOk p = true) -> en_pol en (VPkt p) [] = PARequest rq -> q_name (cq_int rq) = ct_name c -> q_accepts (cq_int rq) (ct_pk c) -> ct_name c <> digestIdentity ->
  verify (VPkt p) (Some c) = true -> forall s2 outs2, run verify depth kind l2 s = Ok (s2, outs2) -> step verify depth kind (VStart en p) s2 = Ok (s', o) ->
  o = [OVerdict (started (l1 ++ l2)) VSuccess].
Proof.
  intros verify depth kind l1 g c l2 s outs en p rq s' o D0 Fs Nd H1 Si Po Qn Qa Ndg Ve s2 outs2 H2 St. pose proof H1 as H1'. apply run_snoc in H1 as (s0 & outs0 & o0 & H0 & St0 & Eo).
  assert (o0 = []) by (apply app_inj_tail in Eo; symmetry; tauto). subst o0. apply Forall_app in Fs as [Fs1 Fs]. inversion Fs as [|? ? Fi Fs2]; subst. apply Forall_app in Fs2 as [Fs2 Fs3]. inversion Fs3 as [|? ? Fv _]; subst.
  assert (K : kept c (st_anch (vs_store s))).
  { cbn [step] in St0. destruct (ta_step (TAIns g c) (st_anch (vs_store s0))) as [[a x]|] eqn:Ts; cbn [bind] in St0; [|discriminate]. apply okinj in St0. pose proof (f_equal fst St0) as C1. pose proof (f_equal snd St0) as C2. cbn [fst snd] in C1, C2. rewrite <- C1. cbn [vs_store st_anch fst].
    pose proof (vi_store _ _ _ (run_vinv _ _ _ _ _ _ Fs1 H0)) as Sv. assert (x = TOut None). { cbn [ta_step] in Ts. injection Ts as _ <-. cbn [snd] in C2. destruct (snd (ta_insert g c (st_anch (vs_store s0)))); [discriminate|reflexivity]. }
    subst x. eapply insert_kept; [apply (si_anch _ _ _ Sv)| |exact Ts]. intros q Iq. right. intro T. unfold anchor_history in Iq. apply in_flat_map in Iq as (e & Ie & Iq). apply (Nd e); [apply in_or_app; left; now apply in_rev|]. exists q. split; [|exact T]. unfold anchor_history. apply in_flat_map. exists e. split; [now left|exact Iq]. }
  apply (run_keeps verify depth kind c l2 s s2 outs2) in H2 as K2; auto; [|intros e Ie; apply Nd; apply in_or_app; right; apply in_or_app; now left].
  assert (Nx : vs_next s2 = started (l1 ++ l2)).
  { assert (R : run verify depth kind ((l1 ++ [VAnch (TAIns g c)]) ++ l2) vs_new = Ok (s2, (outs ++ [[]]) ++ outs2)).
    { clear - H1' H2. revert H1'. generalize vs_new (outs ++ [[]]). induction (l1 ++ [VAnch (TAIns g c)]) as [|e l IH]; intros a b R; cbn [app run] in *; [apply okinj in R; injection R as <- <-; exact H2|].
      destruct (step verify depth kind e a) as [[a1 o1]|]; cbn [bind fst snd] in *; [|discriminate]. destruct (run verify depth kind l a1) as [[a2 o2]|] eqn:R2; cbn [bind fst snd] in *; [|discriminate]. apply okinj in R. injection R as -> <-. rewrite (IH a1 o2 R2). reflexivity. }
    rewrite (next_run _ _ _ _ _ _ R). unfold started. rewrite !filter_app, !nlen_app. cbn [filter is_start]. unfold nlen. cbn [length]. lia. }
  assert (Nde : forall path, ~ on_disk (en_disk en) path (ct_name c)).
  { intros path Od. apply (Nd (VStart en p)); [apply in_or_app; right; apply in_or_app; right; now left|]. exists (TAFindI (en_steady en) (en_disk en) (en_ord en) any_q). split; [now left|]. cbn [touches reads]. do 3 eexists. split; [split; reflexivity|exact Od]. }
  cbn [step] in St. unfold start in St. rewrite Po in St. replace (vp_isInterest p && negb (vp_sigOk p)) with false in St by (destruct (vp_isInterest p); [rewrite Si by reflexivity|]; reflexivity).
  destruct (request _ _ _ _ _ _ _ _ _ _) as [r|] eqn:Rq; cbn [bind] in St; [|discriminate]. apply okinj in St. pose proof (f_equal snd St) as So. cbn [snd] in So. unfold fuel0 in Rq. cbn [request] in Rq.
  change (nlen (@nil cert)) with 0%N in Rq. destruct (N.leb_spec depth 0); [lia|]. rewrite Qn in Rq. destruct (names_eqb (ct_name c) digestIdentity) eqn:Ed; [apply names_eqb_eq in Ed; contradiction|]. cbn [existsb] in Rq.
  destruct (findTrusted en (vs_store s2) (cq_int rq)) as [x|] eqn:Ft; cbn [bind] in Rq; [|discriminate]. rewrite (kept_found c en _ _ _ K2 Nde Qn Qa Ft) in Rq. cbn [settle verifyChain fst snd cacheAll bind] in Rq. apply okinj in Rq. subst r.
  unfold conclude in So. cbn [snd fst] in So. unfold original in So. rewrite Ve in So. rewrite <- So, Nx. reflexivity.
Qed.
Print Assumptions C50_anchor.

(* An example.  /r is a trust anchor; it signs /i, which signs /k, which signs the packet.  The policy asks for these certificates, one after the other. *)
Local Definition kn (x : String.string) : list key := [(8%N, str x)].
Local Definition crt (x : String.string) (period : option (Z * Z)) : cert := mkCert (mkPkt (kn x) [nb 1]) period.
Local Definition ver : vitem -> option cert -> bool := fun it t =>
  match it, t with
  | VPkt _, Some c => names_eqb (ct_name c) (kn "k")
  | VCert c, Some t => (names_eqb (ct_name c) (kn "k") && names_eqb (ct_name t) (kn "i")) || (names_eqb (ct_name c) (kn "i") && names_eqb (ct_name t) (kn "r"))
  | _, None => false
  end.
Local Definition ask (x : String.string) : pans := PARequest (newRequest (mkQ (kn x) true false)).
Local Definition pol : vitem -> list cert -> pans := fun it _ => match it with VPkt _ => ask "k" | VCert c => if names_eqb (ct_name c) (kn "k") then ask "i" else ask "r" end.
Local Definition at' (t : Z) : venv := mkEn t t (fun _ => []) [] pol.
Local Definition p0 : vpkt := mkVP false 7 0 true.
Local Definition q0 (x : String.string) : qint := mkQ (kn x) true false.
Local Definition life (l : list vevent) := run ver 3 FNetwork l vs_new.
(* the certificate /k arrives after a Nack and a timeout, /i at the second attempt *)
Local Definition l0 : list vevent :=
  [VAnch (TAIns 0 (crt "r" (Some (0, 1000)))); VStart (at' 10) p0; VNack 0; VWake (at' 20) 0; VTimeout (at' 30) 0; VData (at' 40) 0 (ct_pk (crt "k" None)) (Some (Some (0, 100)));
   VTimeout (at' 50) 0; VData (at' 60) 0 (ct_pk (crt "i" None)) (Some (Some (0, 100))); VData (at' 70) 0 (ct_pk (crt "i" None)) (Some (Some (0, 100)));
   VStart (at' 80) p0].
Example C49_ex : exists s, life l0 =
  Ok (s, [[]; [OInterest 0 (q0 "k") false true]; [OWait 0 500]; [OInterest 0 (q0 "k") false true]; [OInterest 0 (q0 "k") false true]; [OInterest 0 (q0 "i") false true];
          [OInterest 0 (q0 "i") false true]; [OVerdict 0 VSuccess]; []; [OVerdict 1 VSuccess]]).
Proof. eexists. vm_compute. reflexivity. Qed.
Example C49_ex_hyp : Forall (retries 3) l0 /\ Forall (in_range 1000) l0 /\ Forall steady l0.
Proof.
  assert (R : forall e t, looks e = Some (at' t) -> retries 3 e).
  { intros e t L en it chain rq L' P. rewrite L in L'. injection L' as <-. unfold at', pol, ask in P. cbn [en_pol] in P. destruct it as [p|c]; [|destruct (names_eqb _ _)]; injection P as <-; unfold newRequest; cbn [cq_left]; lia. }
  assert (Q : forall e, looks e = None -> retries 3 e) by (intros e L en it chain rq L' P; rewrite L in L'; discriminate).
  unfold l0. splits.
  - repeat first [apply Forall_nil | apply Forall_cons; [first [eapply R; reflexivity | apply Q; reflexivity]|]].
  - apply Forall_cons; [split; [intros t d []|exact I]|]. repeat first [apply Forall_nil | apply Forall_cons; [intros en L; cbn [looks] in L; (discriminate || (injection L as <-; cbn [at' en_sys en_steady]; unfold hour; lia))|]].
  - apply Forall_cons; [intros t d []|]. repeat first [apply Forall_nil | apply Forall_cons; [intros en L; cbn [looks] in L; (discriminate || (injection L as <-; cbn [at' en_steady]; lia))|]].
Qed.
(* a loop of certificates, and a chain longer than the limit *)
Local Definition ring : vitem -> list cert -> pans := fun it _ => match it with VPkt _ => ask "k" | VCert c => if names_eqb (ct_name c) (kn "k") then ask "i" else ask "k" end.
Local Definition chainpol : vitem -> list cert -> pans := fun it ch => match it with VPkt _ => ask "k" | VCert c => PARequest (newRequest (mkQ [(8%N, List.repeat (nb 0) (List.length ch))] true false)) end.
Local Definition env (f : vitem -> list cert -> pans) (t : Z) : venv := mkEn t t (fun _ => []) [] f.
Example C49_loop : exists s outs, life [VStart (env ring 0) p0; VData (env ring 1) 0 (ct_pk (crt "k" None)) (Some (Some (0, 100))); VData (env ring 2) 0 (ct_pk (crt "i" None)) (Some (Some (0, 100)))] =
  Ok (s, outs ++ [[OVerdict 0 (VFail VE_LOOP)]]).
Proof. eexists. exists [[OInterest 0 (q0 "k") false true]; [OInterest 0 (q0 "i") false true]]. vm_compute. reflexivity. Qed.
Example C49_deep : exists s outs, life [VStart (env chainpol 0) p0; VData (env chainpol 1) 0 (ct_pk (crt "k" None)) (Some (Some (0, 100)));
    VData (env chainpol 2) 0 (mkPkt [(8%N, [])] [nb 2]) (Some (Some (0, 100))); VData (env chainpol 3) 0 (mkPkt [(8%N, [nb 0])] [nb 3]) (Some (Some (0, 100)))] =
  Ok (s, outs ++ [[OVerdict 0 (VFail VE_EXCEEDED_DEPTH)]]) /\ nlen outs = 3%N.
Proof. eexists. eexists [_; _; _]. split; vm_compute; reflexivity. Qed.
(* the hypotheses of C50_anchor: a packet signed by the anchor itself *)
Example C50_anchor_ex : ~ disturbs (ct_name (crt "r" None)) (VStart (at' 5) p0) /\ ct_name (crt "r" None) <> digestIdentity /\ q_accepts (q0 "r") (ct_pk (crt "r" None)).
Proof.
  splits; [|discriminate|].
  - intros (o & [<-|[]] & T). cbn [touches] in T. destruct T as (t & d & path & [_ ->] & (c & [] & _)).
  - apply q_matches_iff. vm_compute. reflexivity.
Qed.

(* What does not hold.  Validation checks the validity period of a certificate when it obtains it, not when the chain is complete: the packet's own certificate may
   have expired when validation succeeds ... *)
Theorem C50_expired_refuted : exists verify depth l en pk c p s outs, run verify depth FNetwork (l ++ [VData en 0 pk c]) vs_new = Ok (s, outs ++ [[OVerdict 0 VSuccess]]) /\ In (VStart (at' 10) p) l /\
  forall en' pk' per, In (VData en' 0 pk' (Some per)) (l ++ [VData en 0 pk c]) -> verify (VPkt p) (Some (mkCert pk' per)) = true -> exists na, ct_notAfter (mkCert pk' per) = Some na /\ na < en_sys en.
Proof.
  exists ver, 3%N, [VAnch (TAIns 0 (crt "r" (Some (0, 1000)))); VStart (at' 10) p0; VData (at' 40) 0 (ct_pk (crt "k" None)) (Some (Some (0, 100)))], (at' 500), (ct_pk (crt "i" None)), (Some (Some (0, 900))), p0.
  eexists. exists [[]; [OInterest 0 (q0 "k") false true]; [OInterest 0 (q0 "i") false true]]. splits; [vm_compute; reflexivity|right; left; reflexivity|].
  intros en' pk' per I V. destruct I as [I|[I|[I|[I|[]]]]]; try discriminate.
  - injection I as _ <- <-. exists 100. split; [reflexivity|]. cbn [at' en_sys]. lia.
  - injection I as _ <- <-. vm_compute in V. discriminate.
Qed.
Print Assumptions C50_expired_refuted.
(* ... and the validity period of a trust anchor is never checked *)
Theorem C50_anchor_expired_refuted : exists verify depth c en p s, run verify depth FNetwork [VAnch (TAIns 0 c); VStart en p] vs_new = Ok (s, [[]; [OVerdict 0 VSuccess]]) /\ exists na, ct_notAfter c = Some na /\ na < en_sys en.
Proof. exists ver, 3%N, (crt "k" (Some (0, 10))), (at' 500), p0. eexists. split; [vm_compute; reflexivity|]. exists 10. split; [reflexivity|]. cbn [at' en_sys]. lia. Qed.
Print Assumptions C50_anchor_expired_refuted.
(* An exception may leave the event loop although the policy throws nothing: a fetched certificate without a validity period.  (The verdict is still given.) *)
Theorem C49_throw_refuted : exists verify depth l s outs, (forall e en it ch er, In e l -> looks e = Some en -> en_pol en it ch <> PAThrow er) /\ run verify depth FNetwork l vs_new = Ok (s, outs ++ [[OVerdict 0 (VFail VE_IMPLEMENTATION); OThrow ETlv]]).
Proof.
  exists ver, 3%N, [VStart (at' 10) p0; VData (at' 40) 0 (ct_pk (crt "k" None)) (Some None)]. eexists. exists [[OInterest 0 (q0 "k") false true]]. split; [|vm_compute; reflexivity].
  intros e en it ch er I L. destruct I as [<-|[<-|[]]]; cbn [looks] in L; injection L as <-; unfold at', pol, ask; cbn [en_pol]; (destruct it as [p|c]; [|destruct (names_eqb _ _)]); discriminate.
Qed.
Print Assumptions C49_throw_refuted.

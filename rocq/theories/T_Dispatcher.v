(* C76, C77, C78: the Dispatcher of management protocols. *)
From Coq Require Import ZArith Lia ZifyBool ZifyNat ZifyN String.
From Verif Require Import Base BaseLemmas M_Tlv M_Str M_Name S_Name P_Name P_NameUri M_Ims S_Ims P_Ims P_ImsI P_ImsT T_Ims M_StatusDataset M_Dispatcher S_Dispatcher P_Dispatcher P_Dispatcher2 P_Dispatcher3 P_Dispatcher4 P_Dispatcher5 P_Dispatcher6.
Open Scope list_scope.
Open Scope N_scope.

(* names for the examples *)
Local Definition g (s : string) : key := (8, str s).
Local Definition top : names := [g "localhost"; g "nfd"].
Local Definition rib : names := [g "rib"; g "register"].
Local Definition lst : names := [g "rib"; g "list"].
Local Definition evt : names := [g "faces"; g "events"].
Local Definition setup : list devent := [DAddHandler rib (HCommand true); DAddHandler lst HDataset; DAddHandler evt HStream; DAddTop top; DTask; DTask; DTask].
Local Definition dg (s : string) : bytes := str s.
Local Definition state (L : N) (evs : list devent) : dstate := fst (d_run TYPED EITHER evs (d_init L)).
Local Definition hist (L : N) (evs : list devent) : history := snd (d_run TYPED EITHER evs (d_init L)).
Lemma reached_by : forall L evs, 16 <= L -> nlen evs < 2 ^ 59 -> reaches TYPED EITHER L evs (state L evs) (hist L evs).
Proof. intros L evs A B. unfold reaches. splits; auto. unfold state, hist. now destruct (d_run _ _ _ _). Qed.

(* ---- C76: registration ---- *)
(* A top-level prefix is refused exactly if it is a prefix of, or has as prefix, one that is in force. *)
Theorem C76_top : forall conv dconv L evs s h t s' o x, reaches conv dconv L evs s h -> d_step conv dconv (DAddTop t) s = (s', o, x) ->
  o = [] /\ (x = None /\ (forall t', In t' (tops_of h) -> ~ comparable t' t) \/ x = Some EOutOfRange /\ s' = s /\ exists t', In t' (tops_of h) /\ comparable t' t).
Proof.
  intros conv dconv L evs s h t s' o x R H. destruct (reaches_inv _ _ _ _ _ _ R) as (I & _ & _). rewrite <- (di_tops _ _ _ I). cbn [d_step] in H. unfold d_addTop in H. destruct (existsb _ _) eqn:E.
  - injection H as <- <- <-. split; auto. right. splits; auto. apply existsb_exists in E as (y & A & B). exists (fst y). split; [apply in_map; exact A|apply overlaps_iff; exact B].
  - injection H as <- <- <-. split; auto. left. split; auto. intros t' Ht C. apply in_map_iff in Ht as (y & <- & Hy). rewrite existsb_no in E. specialize (E _ Hy). apply overlaps_iff in C. cbv beta in E. congruence.
Qed.
Print Assumptions C76_top.
(* A handler is refused exactly if there is a top-level prefix (domain_error), or if its relative prefix overlaps with another (out_of_range). *)
Theorem C76_handler : forall conv dconv L evs s h r k s' o x, reaches conv dconv L evs s h -> d_step conv dconv (DAddHandler r k) s = (s', o, x) ->
  o = [] /\
  (x = None /\ tops_of h = [] /\ (forall r' k', In (r', k') (handlers_of h) -> ~ comparable r' r) \/
   x = Some EDomain /\ s' = s /\ tops_of h <> [] \/
   x = Some EOutOfRange /\ s' = s /\ tops_of h = [] /\ exists r' k', In (r', k') (handlers_of h) /\ comparable r' r).
Proof.
  intros conv dconv L evs s h r k s' o x R H. destruct (reaches_inv _ _ _ _ _ _ R) as (I & _ & _). rewrite <- (di_tops _ _ _ I), <- (di_handlers _ _ _ I). cbn [d_step] in H. unfold d_addHandler, d_checkPrefix in H.
  destruct (d_tops s) as [|y l]; [destruct (existsb _ _) eqn:E|].
  - injection H as <- <- <-. split; auto. right. right. splits; auto. apply existsb_exists in E as ([r' k'] & A & B). exists r', k'. split; auto. apply overlaps_iff. exact B.
  - injection H as <- <- <-. split; auto. left. splits; auto. intros r' k' A C. rewrite existsb_no in E. specialize (E _ A). apply overlaps_iff in C. cbn [fst] in E. congruence.
  - injection H as <- <- <-. split; auto. right. left. splits; auto. discriminate.
Qed.
Print Assumptions C76_handler.
Example C76_register_ex : exists o1 o2 s1 s2, tops_of (hist 16 setup) = [top] /\ List.length (handlers_of (hist 16 setup)) = 3%nat /\
  d_step TYPED EITHER (DAddTop [g "localhost"]) (state 16 setup) = (s1, o1, Some EOutOfRange) /\ d_step TYPED EITHER (DAddHandler [g "x"] HDataset) (state 16 setup) = (s2, o2, Some EDomain).
Proof. do 4 eexists. split; [vm_compute; reflexivity|]. split; [vm_compute; reflexivity|]. split; [vm_compute; reflexivity|vm_compute; reflexivity]. Qed.

(* ---- C76: routing ---- *)
(* Once the tasks posted have run, an Interest has an effect if and only if its name is under a top-level prefix in force followed
   by a relative prefix in force; the two are unique, and the effect is that of their handler. *)
Theorem C76_route : forall conv dconv L evs s h q ps s' o x, reaches conv dconv L evs s h -> d_posted s = [] -> d_step conv dconv (DInterest q ps) s = (s', o, x) ->
  (forall t r k, in_force h t r k -> ~ under t r q) /\ s' = s /\ o = [] /\ x = None \/
  exists t r k, in_force h t r k /\ under t r q /\ (forall t' r' k', in_force h t' r' k' -> under t' r' q -> t' = t /\ r' = r /\ k' = k) /\
    (reaction dconv h (d_ims s) t r q ps k o /\ x = None \/ k = HCommand false /\ nlen (q_name q) <= nlen t + nlen r /\ o = [] /\ x = Some EUb).
Proof.
  intros conv dconv L evs s h q ps s' o x R P H. destruct (reaches_inv _ _ _ _ _ _ R) as (I & LB & NB). assert (F := di_f _ _ _ I). cbn [d_step] in H.
  destruct (dispatch_cases dconv (d_table s) q ps s (tables_head _ _ _ (fi_tables _ F))) as [[N E]|(f & A & M & E)]; rewrite E in H.
  - left. injection H as <- <- <-. splits; auto. intros t r k IF U. apply (settled_table _ _ _ I P) in IF as [i IF]. specialize (N _ IF). change (under (fr_top (mkF i t r k)) (fr_rel (mkF i t r k)) q) in U. apply match_under in U. congruence.
  - right. exists (fr_top f), (fr_rel f), (fr_kind f). assert (IF : in_force h (fr_top f) (fr_rel f) (fr_kind f)) by (apply (settled_table _ _ _ I P); exists (fr_id f); destruct f; exact A).
    apply match_under in M. splits; auto.
    + intros t' r' k' IF' U'. exact (unique_force _ _ _ _ _ _ _ _ _ _ I IF M IF' U').
    + apply (handle_reaction dconv L h s f q ps s' o x I LB); auto. lia.
Qed.
Print Assumptions C76_route.
(* At every time, also while tasks are waiting, at most one handler sees an Interest: one that is or was in force. *)
Theorem C76_one : forall conv dconv L evs s h q ps s' o x, reaches conv dconv L evs s h -> d_step conv dconv (DInterest q ps) s = (s', o, x) ->
  s' = s /\ o = [] /\ x = None \/
  exists t r k h1 h2, h = h1 ++ h2 /\ in_force h1 t r k /\ under t r q /\
    (reaction dconv h (d_ims s) t r q ps k o /\ x = None \/ k = HCommand false /\ nlen (q_name q) <= nlen t + nlen r /\ o = [] /\ x = Some EUb).
Proof.
  intros conv dconv L evs s h q ps s' o x R H. destruct (reaches_inv _ _ _ _ _ _ R) as (I & LB & NB). assert (F := di_f _ _ _ I). cbn [d_step] in H.
  destruct (dispatch_cases dconv (d_table s) q ps s (tables_head _ _ _ (fi_tables _ F))) as [[N E]|(f & A & M & E)]; rewrite E in H.
  - left. injection H as <- <- <-. auto.
  - right. assert (W := tables_head _ _ _ (di_was _ _ _ I) f A). destruct W as (h1 & h2 & E1 & IF). exists (fr_top f), (fr_rel f), (fr_kind f), h1, h2. apply match_under in M. splits; auto.
    apply (handle_reaction dconv L h s f q ps s' o x I LB); auto. lia.
Qed.
Print Assumptions C76_one.
(* The tasks do run out, and they change neither prefixes nor handlers. *)
Theorem C76_settles : forall conv dconv L evs s h s' h', reaches conv dconv L evs s h -> d_run conv dconv (repeat DTask (List.length (d_posted s))) s = (s', h') ->
  d_posted s' = [] /\ outputs h' = [] /\ tops_of (h ++ h') = tops_of h /\ handlers_of (h ++ h') = handlers_of h.
Proof.
  intros conv dconv L evs s h s' h' _. revert s h h'. assert (G : forall n s h h', List.length (d_posted s) = n -> d_run conv dconv (repeat DTask n) s = (s', h') -> d_posted s' = [] /\ outputs h' = [] /\ tops_of (h ++ h') = tops_of h /\ handlers_of (h ++ h') = handlers_of h).
  { induction n as [|n IH]; intros s h h' N H; cbn in H.
    - injection H as <- <-. destruct (d_posted s); [|discriminate]. rewrite app_nil_r. auto.
    - unfold d_task in H. destruct (d_posted s) as [|y l]; [discriminate|]. cbn in N. injection N as N.
      assert (X : exists s1 h2, d_posted s1 = l /\ d_run conv dconv (repeat DTask n) s1 = (s', h2) /\ h' = (DTask, [], None) :: h2).
      { destruct y as [f|j]; cbn in H; match type of H with context [d_run conv dconv (repeat DTask n) ?z] => destruct (d_run conv dconv (repeat DTask n) z) as [s2 h2] eqn:E2; exists z, h2 end; injection H as -> <-; auto. }
      destruct X as (s1 & h2 & X & E2 & ->).
      destruct (IH s1 (h ++ [(DTask, [], None)]) h2) as (A & B & C & D); [congruence|exact E2|]. rewrite <- app_assoc in C, D. cbn in C, D. rewrite tops_snoc in C. rewrite handlers_snoc in D. cbn in C, D. splits; auto. }
  intros s h h' H. exact (G _ s h h' eq_refl H).
Qed.
Print Assumptions C76_settles.
Local Definition qi (n : names) : qint := mkQ n false false.
Example C76_route_ex : d_posted (state 16 setup) = [] /\ in_force (hist 16 setup) top lst HDataset /\ under top lst (qi (top ++ lst)) /\
  snd (fst (d_step TYPED EITHER (DInterest (qi (top ++ lst)) true) (state 16 setup))) = [OAuthorize 0 (mkReq HDataset top lst (qi (top ++ lst)))] /\
  snd (fst (d_step TYPED EITHER (DInterest (qi (top ++ [g "rib"])) true) (state 16 setup))) = [].
Proof. splits; try (vm_compute; reflexivity). unfold in_force. split; vm_compute; auto. exists []. reflexivity. Qed.
Example C76_settles_ex : List.length (d_posted (state 16 (firstn 4 setup))) = 3%nat /\ snd (fst (d_step TYPED EITHER (DInterest (qi (top ++ lst)) true) (state 16 (firstn 4 setup)))) = [].
Proof. split; vm_compute; reflexivity. Qed.

(* ---- C76: authorization ---- *)
(* Everything the application is asked for and everything sent or stored has its cause in the history before it. *)
Theorem C76_justified : forall conv dconv L evs s h h1 e o x h2 y, reaches conv dconv L evs s h -> h = h1 ++ (e, o, x) :: h2 -> In y o -> justified dconv h1 e y.
Proof.
  intros conv dconv L evs s h h1 e o x h2 y R E Y. destruct (reaches_split _ _ _ _ _ _ _ _ _ _ _ R E) as (evs1 & s1 & s2 & R1 & ST). destruct (reaches_inv _ _ _ _ _ _ R1) as (I & LB & NB).
  apply (step_justified conv dconv L h1 e s1 s2 o x y I); auto. apply (stored_kept _ _ _ I LB). lia.
Qed.
Print Assumptions C76_justified.
(* The continuations that the application gets are different from each other. *)
Theorem C76_numbers : forall conv dconv L evs s h, reaches conv dconv L evs s h ->
  (forall i r r', In (OAuthorize i r) (outputs h) -> In (OAuthorize i r') (outputs h) -> r = r') /\
  (forall c r r', In (OCommand c r) (outputs h) -> In (OCommand c r') (outputs h) -> r = r') /\
  (forall c r r', In (ODataset c r) (outputs h) -> In (ODataset c r') (outputs h) -> r = r').
Proof.
  intros conv dconv L evs s h R. destruct (reaches_inv _ _ _ _ _ _ R) as (I & _ & _).
  splits; intros i r r' A B; [apply (di_asked _ _ _ I) in A, B|apply (di_cmds _ _ _ I) in A, B|apply (di_ctxs _ _ _ I) in A, B]; congruence.
Qed.
Print Assumptions C76_numbers.
(* What the application decides takes effect. *)
Theorem C76_answers : forall conv dconv L evs s h i r d, reaches conv dconv L evs s h -> asked h i r ->
  (forall b sg, rq_kind r = HCommand b -> exists c s', d_step conv dconv (DAccept i true sg) s = (s', [OCommand c r], None) /\
     forall code, snd (fst (d_step conv dconv (DDone c code (Some d)) s')) = [OSent (response r d) (BResponse code)]) /\
  (forall b, rq_kind r = HCommand b -> d_step conv dconv (DAccept i false (Some d)) s = (s, [OSent (response r d) (BResponse 400)], None)) /\
  (forall v sg, rq_kind r = HDataset -> exists c s', d_step conv dconv (DAccept i v sg) s = (s', [ODataset c r], None) /\
     forall resp, snd (fst (d_step conv dconv (DContext c (SdNack resp) (Some d)) s')) = [OSent (response r d) (BNack resp)]) /\
  d_step conv dconv (DReject i true (Some d)) s = (s, [OSent (response r d) (BResponse 403)], None) /\
  (forall sg, d_step conv dconv (DReject i false sg) s = (s, [], None)).
Proof.
  intros conv dconv L evs s h i r d R A. destruct (reaches_inv _ _ _ _ _ _ R) as (I & _ & _). apply (di_asked _ _ _ I) in A. cbn [d_step]. unfold d_accept, d_reject. rewrite A.
  assert (NS := di_kinds _ _ _ I r (nth_error_In _ _ A)). splits.
  - intros b sg K. rewrite K. eexists; eexists. split; [reflexivity|]. intro code. unfold d_done. cbn [d_cmds setCmds]. rewrite nth_error_app2, Nat.sub_diag by lia. reflexivity.
  - intros b K. rewrite K. reflexivity.
  - intros v sg K. rewrite K. eexists; eexists. split; [reflexivity|]. intro resp. unfold d_context. cbn [d_ctxs setCtxs]. rewrite nth_error_app2, Nat.sub_diag by lia. reflexivity.
  - reflexivity.
  - reflexivity.
Qed.
Print Assumptions C76_answers.
Local Definition cmd : names := top ++ rib ++ [(8, str "params")].
Local Definition auth : list devent := setup ++ [DInterest (qi cmd) true; DInterest (qi (top ++ lst)) true].
Example C76_auth_ex : asked (hist 16 auth) 0 (mkReq (HCommand true) top rib (qi cmd)) /\ asked (hist 16 auth) 1 (mkReq HDataset top lst (qi (top ++ lst))) /\
  outputs (hist 16 (auth ++ [DReject 0 true (Some (dg "d"))])) = outputs (hist 16 auth) ++ [OSent (mkPkt cmd (dg "d")) (BResponse 403)] /\
  outputs (hist 16 (auth ++ [DAccept 0 true None; DDone 0 200 (Some (dg "d"))])) =
    outputs (hist 16 auth) ++ [OCommand 0 (mkReq (HCommand true) top rib (qi cmd)); OSent (mkPkt cmd (dg "d")) (BResponse 200)].
Proof. unfold asked. splits; vm_compute; auto. Qed.

(* An Interest with the name of the command itself, without parameters, is undefined behaviour if the command was added with the older
   addControlCommand: the component read is not there. *)
Theorem C76_exact_name_refuted : exists L evs s h q ps s' o, reaches TYPED EITHER L evs s h /\ d_posted s = [] /\ in_force h top rib (HCommand false) /\ under top rib q /\
  d_step TYPED EITHER (DInterest q ps) s = (s', o, Some EUb).
Proof.
  exists 16, [DAddHandler rib (HCommand false); DAddTop top; DTask]. eexists. eexists. exists (qi (top ++ rib)), true. eexists. eexists. split; [apply reached_by; vm_compute; [discriminate|reflexivity]|].
  split; [vm_compute; reflexivity|]. split; [unfold in_force; split; vm_compute; auto|]. split; [exists []; reflexivity|vm_compute; reflexivity].
Qed.
Print Assumptions C76_exact_name_refuted.
(* What a dataset handler produced for one authorized requester is sent to every later one, without asking the Authorization function:
   here for the same Interest, which was rejected when it came first. *)
Local Definition dsname : name := mkName (List.map (fun k => mkComp (fst k) None (snd k)) (top ++ lst) ++ [mkComp 54 None [Byte.x01]; mkComp 50 None [Byte.x00]]) None.
Local Definition openq : qint := mkQ (top ++ lst) true true.
Local Definition leak : list devent := setup ++ [DInterest openq true; DReject 0 false None; DInterest openq true; DAccept 1 true None; DContext 0 (SdData dsname (str "secret") true) (Some (dg "d"))].
Theorem C76_cached_refuted : exists L evs s h q p s', reaches TYPED EITHER L evs s h /\ asked h 0 (mkReq HDataset top lst q) /\ In (DReject 0 false None, [], None) h /\
  In (OSent p (BSegment (str "secret") true)) (outputs h) /\ d_step TYPED EITHER (DInterest q true) s = (s', [OSent p BStored], None).
Proof.
  exists 16, leak. eexists. eexists. exists openq, (mkPkt (nkey dsname) (dg "d")). eexists. split; [apply reached_by; vm_compute; [discriminate|reflexivity]|].
  split; [vm_compute; auto|]. split; [vm_compute; tauto|]. split; [vm_compute; tauto|vm_compute; reflexivity].
Qed.
Print Assumptions C76_cached_refuted.

(* ---- C77: notifications ---- *)
(* Posting sends and stores one Data, numbered by the notifications posted to that stream before, if there is exactly one top-level prefix; otherwise it does nothing. *)
Theorem C77_number_partial : forall conv dconv L evs s h r d s' o x, reaches conv dconv L evs s h -> no_reset h -> d_step conv dconv (DPost r (Some d)) s = (s', o, x) ->
  match posted_to h (DPost r (Some d)) with
  | None => s' = s /\ o = [] /\ x = None
  | Some n => exists c, fromKind conv KSequenceNumber (posts h n) = Ok c /\ o = [OKept (mkPkt (n ++ [ckey c]) d); OSent (mkPkt (n ++ [ckey c]) d) BNotification] /\ x = None
  end.
Proof. exact post_step. Qed.
Print Assumptions C77_number_partial.
Theorem C77_silent : forall conv dconv L evs s h r sg s' o x, reaches conv dconv L evs s h -> d_step conv dconv (DPost r sg) s = (s', o, x) ->
  (List.length (tops_of h) <> 1%nat \/ ~ In (r, HStream) (handlers_of h)) -> s' = s /\ o = [] /\ x = None.
Proof.
  intros conv dconv L evs s h r sg s' o x R H C. destruct (reaches_inv _ _ _ _ _ _ R) as (I & _ & _). apply (post_none conv dconv L h r sg s s' o x I H). cbn [posted_to].
  destruct (tops_of h) as [|t [|t' l]] eqn:T; auto. destruct (existsb _ _) eqn:E; auto. apply stream_exists in E. destruct C as [C|C]; [cbn in C; congruence|contradiction].
Qed.
Print Assumptions C77_silent.
(* No two notifications have the same name. *)
Theorem C77_unique_partial : forall conv dconv L evs s h h1 e1 o1 x1 h2 e2 o2 x2 h3 p1 p2, reaches conv dconv L evs s h -> no_reset h ->
  h = h1 ++ (e1, o1, x1) :: h2 ++ (e2, o2, x2) :: h3 -> In (OSent p1 BNotification) o1 -> In (OSent p2 BNotification) o2 -> pk_name p1 <> pk_name p2.
Proof.
  intros conv dconv L evs s h h1 e1 o1 x1 h2 e2 o2 x2 h3 p1 p2 R NR E P1 P2 EN.
  destruct (notified _ _ _ _ _ _ _ _ _ _ _ _ R NR E P1) as (n1 & c1 & A1 & B1 & C1 & D1).
  assert (E' : h = (h1 ++ (e1, o1, x1) :: h2) ++ (e2, o2, x2) :: h3) by (rewrite E, <- app_assoc; reflexivity).
  destruct (notified _ _ _ _ _ _ _ _ _ _ _ _ R NR E' P2) as (n2 & c2 & A2 & B2 & C2 & D2).
  rewrite C1, C2 in EN. apply app_inj_tail in EN as [<- K]. assert (X : posts h1 n1 = posts (h1 ++ (e1, o1, x1) :: h2) n1) by (apply (seq_key_inj conv _ _ c1 c2); auto; lia).
  assert (Y := posts_app (h1 ++ [(e1, o1, x1)]) h2 n1). rewrite <- app_assoc in Y. cbn [app] in Y. rewrite posts_snoc in Y. cbn [fst] in Y. rewrite A1, (proj2 (names_eqb_eq n1 n1) eq_refl) in Y. lia.
Qed.
Print Assumptions C77_unique_partial.
Local Definition post3 : list devent := setup ++ [DPost evt (Some (dg "a")); DPost evt (Some (dg "b"))].
Local Definition seqc (n : N) : key := match fromKind TYPED KSequenceNumber n with Ok c => ckey c | Err _ => (0, []) end.
(* a check of no_reset, to be computed *)
Fixpoint no_resetb (pre rest : history) : bool :=
  match rest with
  | [] => true
  | e :: rest' => match e with (DAddHandler n HStream, _, None) => posts pre n =? 0 | _ => true end && no_resetb (pre ++ [e]) rest'
  end.
Lemma no_resetb_ok : forall h, no_resetb [] h = true -> no_reset h.
Proof.
  assert (G : forall rest pre, no_resetb pre rest = true -> forall h1 n o h2, rest = h1 ++ (DAddHandler n HStream, o, None) :: h2 -> posts (pre ++ h1) n = 0).
  { induction rest as [|e rest IH]; intros pre H h1 n o h2 E; [destruct h1; discriminate|]. cbn in H. apply andb_prop in H as [A B]. destruct h1 as [|e' h1]; cbn in E; injection E as -> E.
    - rewrite app_nil_r. apply N.eqb_eq. exact A.
    - specialize (IH _ B _ _ _ _ E). rewrite <- app_assoc in IH. exact IH. }
  intros h H h1 n o h2 E. exact (G h [] H h1 n o h2 E).
Qed.
Example C77_ex : no_reset (hist 16 post3) /\ posted_to (hist 16 post3) (DPost evt (Some (dg "c"))) = Some (top ++ evt) /\ posts (hist 16 post3) (top ++ evt) = 2 /\
  outputs (hist 16 post3) = [OKept (mkPkt (top ++ evt ++ [seqc 0]) (dg "a")); OSent (mkPkt (top ++ evt ++ [seqc 0]) (dg "a")) BNotification;
                             OKept (mkPkt (top ++ evt ++ [seqc 1]) (dg "b")); OSent (mkPkt (top ++ evt ++ [seqc 1]) (dg "b")) BNotification].
Proof.
  split; [apply no_resetb_ok; vm_compute; reflexivity|]. splits; vm_compute; reflexivity.
Qed.

(* C77 in full has no hypothesis no_reset.  Without it a name can be used twice: the counter of the stream /a under the top-level prefix /x is reset when a stream whose
   relative prefix is /x/a is added. *)
Local Definition reuse : list devent :=
  [DAddHandler [g "a"] HStream; DAddTop [g "x"]; DPost [g "a"] (Some (dg "1")); DRemoveTop [g "x"]; DAddHandler [g "x"; g "a"] HStream; DAddTop [g "x"]; DPost [g "a"] (Some (dg "2"))].
Theorem C77_reuse_refuted : exists L evs s h p1 p2, reaches TYPED EITHER L evs s h /\ p1 <> p2 /\ pk_name p1 = pk_name p2 /\
  outputs h = [OKept p1; OSent p1 BNotification; OKept p2; OSent p2 BNotification].
Proof.
  exists 16, reuse. eexists. eexists. exists (mkPkt [g "x"; g "a"; seqc 0] (dg "1")), (mkPkt [g "x"; g "a"; seqc 0] (dg "2")). split; [apply reached_by; vm_compute; [discriminate|reflexivity]|].
  split; [discriminate|]. split; [reflexivity|vm_compute; reflexivity].
Qed.
Print Assumptions C77_reuse_refuted.

(* ---- C78: the storage ---- *)
(* A packet put in the storage stays there until as many packets as the storage holds have been put there after it. *)
Theorem C78_retained : forall conv dconv L evs s h a p b, reaches conv dconv L evs s h -> kept_of (outputs h) = a ++ p :: b -> ~ In p a -> nlen b < L -> In p (stored (d_ims s)).
Proof. intros conv dconv L evs s h a p b R. destruct (reaches_inv _ _ _ _ _ _ R) as (I & LB & NB). apply (kept_retained L h s a p b I LB). lia. Qed.
Print Assumptions C78_retained.
(* Every segment that a dataset handler produces is stored, and the first one is sent as well. *)
Local Lemma nm_get_last : forall n f l, n_comps n = f ++ [l] -> nm_get (-1) n = Ok l.
Proof.
  intros n f l E. unfold nm_get, nm_index, nm_size. rewrite E, nlen_app. change (nlen [l]) with 1. change (-1 <? 0)%Z with true. cbv iota.
  destruct (_ || _) eqn:B; [lia|]. replace (Z.to_nat (-1 + Z.of_N (nlen f + 1))) with (List.length f) by (unfold nlen; lia). rewrite nth_error_app2, Nat.sub_diag by lia. reflexivity.
Qed.
Theorem C78_kept : forall conv dconv L evs s h c r n f l i content final d, reaches conv dconv L evs s h -> In (ODataset c r) (outputs h) ->
  n_comps n = f ++ [l] -> toKind dconv KSegment l = Ok i ->
  exists s', d_step conv dconv (DContext c (SdData n content final) (Some d)) s =
    (s', OKept (mkPkt (nkey n) d) :: (if i =? 0 then [OSent (mkPkt (nkey n) d) (BSegment content final)] else []), None).
Proof.
  intros conv dconv L evs s h c r n f l i content final d R A E K. destruct (reaches_inv _ _ _ _ _ _ R) as (I & LB & NB). apply (di_ctxs _ _ _ I) in A.
  cbn [d_step]. unfold d_context. rewrite A. rewrite (nm_get_last n f l E), K. unfold d_send.
  destruct (ims_usable _ _ _ I LB) as (ops & ho & U & RI & _ & _); [lia|]. destruct (reached_Inv _ _ _ _ _ _ U RI) as (IM & _). destruct U as (_ & _ & UN).
  destruct (insert_spec _ _ _ (mkPkt (nkey n) d) true IM UN) as (m & io & EI & _). rewrite EI. eexists. destruct (i =? 0); reflexivity.
Qed.
Print Assumptions C78_kept.
(* Until then an Interest that the packet satisfies and that reaches a dataset or a stream is answered from the storage. *)
Theorem C78_fetch_partial : forall conv dconv L evs s h a p b t r k q ps s' o x, reaches conv dconv L evs s h -> d_posted s = [] ->
  kept_of (outputs h) = a ++ p :: b -> ~ In p a -> nlen b < L ->
  in_force h t r k -> k = HDataset \/ k = HStream -> under t r q -> q_mbf q = false -> q_accepts q p ->
  d_step conv dconv (DInterest q ps) s = (s', o, x) ->
  exists p', o = [OSent p' BStored] /\ x = None /\ In (OKept p') (outputs h) /\ q_accepts q p' /\
    ((forall p2, In (OKept p2) (outputs h) -> q_accepts q p2 -> p2 = p) -> p' = p).
Proof.
  intros conv dconv L evs s h a p b t r k q ps s' o x R P K NA LT IF KI U MB QA H. assert (ST := C78_retained _ _ _ _ _ _ _ _ _ R K NA LT).
  destruct (reaches_inv _ _ _ _ _ _ R) as (I & LB & NB). assert (EL : q_eligible q (d_ims s) p) by (split; auto; rewrite MB; exact ST).
  destruct (C76_route _ _ _ _ _ _ _ _ _ _ _ R P H) as [(N & _)|(t0 & r0 & k0 & IF0 & U0 & UN & RE)]; [exfalso; exact (N _ _ _ IF U)|].
  destruct (UN _ _ _ IF U) as (-> & -> & ->).
  assert (FIN : forall p', In p' (stored (d_ims s)) -> q_accepts q p' -> In (OKept p') (outputs h) /\ q_accepts q p' /\ ((forall p2, In (OKept p2) (outputs h) -> q_accepts q p2 -> p2 = p) -> p' = p)).
  { intros p' A B. assert (KP := stored_kept _ _ _ I LB ltac:(lia) _ A). splits; auto. }
  destruct RE as [[RE ->]|(-> & _)]; [|destruct KI; discriminate].
  inversion RE; subst; try (destruct KI; discriminate); try (exfalso; match goal with N : forall p, ~ q_eligible _ _ p |- _ => exact (N _ EL) end).
  match goal with A : In ?p' (stored _), B : q_accepts _ ?p' |- _ => exists p'; destruct (FIN _ A B) as (F1 & F2 & F3) end. splits; auto.
Qed.
Print Assumptions C78_fetch_partial.
Local Definition segname (i : N) : name := mkName (List.map (fun k => mkComp (fst k) None (snd k)) (top ++ lst) ++ [mkComp 54 None [Byte.x01]; mkComp 50 None [nb i]]) None.
Local Definition seg (i : N) : devent := DContext 0 (SdData (segname i) (str "x") false) (Some (dg "d" ++ [nb i])).
Local Definition segs (k : N) : list devent := setup ++ [DInterest (qi (top ++ lst)) true; DAccept 0 true None] ++ map (fun i => seg (N.of_nat i)) (seq 0 (N.to_nat k)).
Local Definition segpkt (i : N) : pkt := mkPkt (nkey (segname i)) (dg "d" ++ [nb i]).
Example C78_kept_ex : In (ODataset 0 (mkReq HDataset top lst (qi (top ++ lst)))) (outputs (hist 16 (segs 1))) /\
  toKind EITHER KSegment (mkComp 50 None [nb 7]) = Ok 7 /\ snd (fst (d_step TYPED EITHER (seg 7) (state 16 (segs 1)))) = [OKept (segpkt 7)].
Proof. splits; vm_compute; auto. Qed.
Example C78_ex : exists b, kept_of (outputs (hist 16 (segs 16))) = [] ++ segpkt 0 :: b /\ nlen b < 16 /\ d_posted (state 16 (segs 16)) = [] /\
  snd (fst (d_step TYPED EITHER (DInterest (qi (nkey (segname 0))) true) (state 16 (segs 16)))) = [OSent (segpkt 0) BStored].
Proof. eexists. split; [vm_compute; reflexivity|]. split; [vm_compute; reflexivity|]. split; vm_compute; reflexivity. Qed.
(* C78 in full: every segment of a dataset can be fetched.  A dataset of more segments than the storage holds has lost its first ones as soon as it is complete; an Interest for
   them is not answered, and the dataset handler is not asked again. *)
Theorem C78_large_refuted : exists L evs s h p q s', reaches TYPED EITHER L evs s h /\ d_posted s = [] /\ in_force h top lst HDataset /\ In (OSent p (BSegment (str "x") false)) (outputs h) /\
  under top lst q /\ q_accepts q p /\ d_step TYPED EITHER (DInterest q true) s = (s', [], None).
Proof.
  exists 16, (segs 17). eexists. eexists. exists (segpkt 0), (qi (nkey (segname 0))). eexists. split; [apply reached_by; vm_compute; [discriminate|reflexivity]|].
  split; [vm_compute; reflexivity|]. split; [unfold in_force; split; vm_compute; auto|]. split; [vm_compute; tauto|]. split; [exists [(54, [Byte.x01]); (50, [nb 0])]; reflexivity|].
  split; [right; left; reflexivity|vm_compute; reflexivity].
Qed.
Print Assumptions C78_large_refuted.

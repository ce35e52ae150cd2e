From Coq Require Import List ZArith Lia ZifyBool ZifyNat ZifyN.
From Verif Require Import Base BaseLemmas S_Name P_NameOrder M_Ims S_Ims P_Ims M_CertCache S_CertCache P_CertCache M_Anchors S_Anchors P_Anchors M_Validator S_Validator.
Import ListNotations.
Open Scope Z_scope.

Lemma okinj : forall A (x y : A), Ok x = Ok y -> x = y.
Proof. intros A x y H. injection H; auto. Qed.

(* ---- caches ---- *)
Record cinv (c : ccache) : Prop := { ci_sorted : tsorted (cc_time c); ci_until : forall e, In e (cc_time c) -> exists na, ct_notAfter (ce_cert e) = Some na /\ ce_removal e <= na }.
Lemma cinv_new : forall m, cinv (cc_new m).
Proof. intro m. constructor; [constructor|intros e []]. Qed.
Lemma cinv_clear : forall c, cinv (cc_clear c).
Proof. intro c. constructor; [constructor|intros e []]. Qed.
Lemma cinv_insert : forall now x c c', cinv c -> cc_insert now x c = Ok c' -> cinv c' /\ (forall e, In e (cc_time c') -> In e (cc_time c) \/ ce_cert e = x) /\ cc_max c' = cc_max c.
Proof.
  intros now x c c' [S U] H. unfold cc_insert in H. destruct (ct_notAfter x) as [na|] eqn:Na; [|discriminate]. destruct (na <? now); [injection H as <-; splits; auto; constructor; auto|].
  destruct (tp_add now (cc_max c)) as [m|] eqn:T; cbn [bind] in H; [|discriminate]. destruct (existsb _ _); [injection H as <-; splits; auto; constructor; auto|]. injection H as <-. cbn [cc_time cc_max]. splits; auto.
  - constructor; cbn [cc_time]; [now apply time_insert_sorted|]. intros e I. apply time_insert_in in I. destruct I as [->|I]; [|auto]. cbn [ce_cert ce_removal]. exists na. split; [exact Na|lia].
  - intros e I. apply time_insert_in in I. destruct I as [->|I]; auto.
Qed.
Lemma lower_sub : forall n l x, In x (lower_name n l) -> In x l.
Proof. intros n. induction l as [|y l IH]; intros x I; cbn [lower_name] in I; [exact I|]. destruct (names_ltb _ _); [right; auto|exact I]. Qed.
Lemma scan_found : forall q l c, scan_match q l = Some c -> exists e, In e l /\ ce_cert e = c /\ q_accepts q (ct_pk c).
Proof.
  intros q. induction l as [|e l IH]; intros c H; cbn [scan_match] in H; [discriminate|]. destruct (prefixb _ _); [|discriminate]. destruct (q_matches q (ct_pk (ce_cert e))) eqn:M.
  - injection H as <-. exists e. splits; [now left|reflexivity|now apply q_matches_iff].
  - destruct (IH c H) as (e' & I & E). exists e'. split; [now right|exact E].
Qed.
Lemma cc_find : forall now q c r, cinv c -> cc_findInterest now q c = r -> cinv (fst r) /\ cc_max (fst r) = cc_max c /\ (forall e, In e (cc_time (fst r)) -> In e (cc_time c)) /\
  forall x, snd r = Some x -> q_accepts q (ct_pk x) /\ (exists e, In e (cc_time c) /\ ce_cert e = x) /\ exists na, ct_notAfter x = Some na /\ now <= na.
Proof.
  intros now q c r [S U] <-. unfold cc_findInterest. cbn [fst snd]. unfold cc_refresh. cbn [cc_time cc_max].
  assert (Sub : forall e, In e (drop_expired now (cc_time c)) -> In e (cc_time c) /\ now <= ce_removal e) by (intros e I; now apply drop_expired_in).
  splits; auto.
  - constructor; cbn [cc_time]; [now apply drop_expired_sorted|]. intros e I. apply U. apply Sub. exact I.
  - intros e I. now apply Sub.
  - intros x H. apply scan_found in H as (e & I & E & A). apply lower_sub in I. apply names_in in I. cbn [cc_time] in I. apply Sub in I as [I L]. splits; [exact A|exists e; auto|]. destruct (U _ I) as (na & Na & Le). rewrite E in Na. exists na. split; [exact Na|lia].
Qed.
Lemma names_eqb_sym_iff : forall a b, names_eqb a b = true <-> a = b.
Proof. exact names_eqb_eq. Qed.

Section V.
Variable verify : vitem -> option cert -> bool.
Variable maxDepth : N.
Variable kind : fkind.
Notation linked := (linked verify).
Notation trust := (trust verify).
Notation verified := (verified verify).

(* ---- the chain of a validation in progress ---- *)
Fixpoint chain_ok (h : list vevent) (q0 : qint) (chain : list cert) (q : qint) : Prop :=
  match chain with
  | [] => q = q0
  | c :: rest => approved h c q /\ exists q', chain_ok h q0 rest q' /\ q_accepts q' (ct_pk c)
  end.
Lemma approved_mono : forall e h c q, approved h c q -> approved (e :: h) c q.
Proof. intros e h c q (e' & en & ch & rq & I & X). exists e', en, ch, rq. split; [now right|exact X]. Qed.
Lemma chain_mono : forall e h q0 chain q, chain_ok h q0 chain q -> chain_ok (e :: h) q0 chain q.
Proof.
  intros e h q0. induction chain as [|c chain IH]; intros q H; cbn [chain_ok] in *; [exact H|]. destruct H as (A & q' & B & C). split; [now apply approved_mono|]. exists q'. split; [now apply IH|exact C].
Qed.
Lemma chain_verified : forall h q0 chain q t k r, trust h t -> q_accepts q (ct_pk t) -> chain_ok h q0 chain q -> verifyChain verify t chain = (k, r) ->
  (forall c, In c k -> linked h c) /\ (forall c, In c k -> In c chain) /\ (forall x, r = Some x -> trust h x /\ q_accepts q0 (ct_pk x)).
Proof.
  intros h q0. induction chain as [|c chain IH]; intros q t k r T A C H; cbn [verifyChain chain_ok] in *.
  - injection H as <- <-. subst q. splits; [intros ? []|intros ? []|]. intros x E. injection E as <-. auto.
  - destruct (verify (VCert c) (Some t)) eqn:V; [|injection H as <- <-; splits; [intros ? []|intros ? []|discriminate]].
    destruct C as (Ap & q' & C & A'). assert (L : linked h c) by (eapply L_signed; eauto). destruct (verifyChain verify c chain) as [k' r'] eqn:R. injection H as <- <-. cbn [fst snd].
    destruct (IH q' c k' r' (T_linked _ _ _ L) A' C R) as (X1 & X2 & X3). splits; auto; intros x [<-|I]; auto; [now left|right; auto].
Qed.
Lemma chain_periods : forall h q0 chain q c, chain_ok h q0 chain q -> In c chain -> exists pd, ct_period c = Some pd.
Proof.
  intros h q0. induction chain as [|x chain IH]; intros q c C I; [destruct I|]. cbn [chain_ok] in C. destruct C as (Ap & q' & C & _). destruct I as [<-|I]; [|eauto].
  destruct Ap as (e & en & ch & rq & _ & _ & _ & _ & nb & na & E & _). eauto.
Qed.
Lemma cacheAll_inv : forall (P : cert -> Prop) now l c c', cinv c -> (forall e, In e (cc_time c) -> P (ce_cert e)) -> (forall x, In x l -> P x) -> cacheAll now l c = Ok c' ->
  cinv c' /\ (forall e, In e (cc_time c') -> P (ce_cert e)) /\ cc_max c' = cc_max c.
Proof.
  intros P now. induction l as [|x l IH]; intros c c' Ci H1 H2 H; cbn [cacheAll] in H; [injection H as <-; auto|]. destruct (cc_insert now x c) as [c1|] eqn:E; cbn [bind] in H; [|discriminate].
  destruct (cinv_insert _ _ _ _ Ci E) as (A & B & M). rewrite <- M. apply (IH c1 c' A); auto; [|intros y I; apply H2; now right]. intros e I. destruct (B e I) as [J|J]; [auto|]. rewrite J. apply H2. now left.
Qed.

(* ---- the store, before and after the latest call e of the history e :: h ---- *)
Record sinv (ha : list taop) (P : cert -> Prop) (s : store) : Prop := {
  si_anch : ainv ha (st_anch s); si_ver : cinv (st_ver s); si_unv : cinv (st_unv s); si_ok : forall e, In e (cc_time (st_ver s)) -> P (ce_cert e);
  si_vmax : cc_max (st_ver s) = hour; si_umax : cc_max (st_unv s) = fiveMin }.

(* success of a validation of packet p for which the policy asked for q0 *)
Notation succeeded := (succeeded verify).
Definition outcome (h : list vevent) (p : vpkt) (q0 : qint) (r : vres) : Prop :=
  match r with
  | RDone VSuccess => succeeded h p q0
  | RPend chain _ rq _ => chain_ok h q0 chain (cq_int rq)
  | _ => True
  end.
Section Call.
Variable e : vevent.
Variable h : list vevent.
Variable en : venv.
Hypothesis Le : looks e = Some en.
Let H := e :: h.
Let ha := anchor_history H.
Lemma reads_now : exists o, In o (since_clear ha) /\ reads o (en_steady en) (en_disk en).
Proof using Le.
  unfold ha, H, anchor_history. cbn [flat_map]. assert (E : match e with VAnch o => [o] | _ => match looks e with Some en0 => [TAFindI (en_steady en0) (en_disk en0) (en_ord en0) any_q] | None => [] end end = [TAFindI (en_steady en) (en_disk en) (en_ord en) any_q]).
  { destruct e; cbn [looks] in *; try discriminate Le; injection Le as ->; reflexivity. }
  rewrite E. cbn [app since_clear]. eexists. split; [now left|]. cbn. auto.
Qed.
Lemma anch_step : forall q a r, ainv ha a -> ta_findInterest (en_steady en) (en_disk en) (en_ord en) q a = Ok r ->
  ainv ha (fst r) /\ forall c, snd r = Some c -> anchored H en c /\ q_accepts q (ct_pk c).
Proof using Le.
  intros q a r Inv F. destruct reads_now as (o & Io & Rd). unfold ta_findInterest in F. destruct (ta_refresh _ _ _ _) as [a1|] eqn:R; cbn [bind] in F; [|discriminate]. injection F as <-. cbn [fst snd].
  destruct (refresh_all _ o _ _ _ _ _ Inv Io Rd R) as [Inv1 Ex]. split; [exact Inv1|]. intros c E. pose proof (ascan_spec q _ (ai_sorted _ _ Inv1)) as S. rewrite E in S. destruct S as [(_ & A & I) _]. split; [|exact A]. unfold anchored. apply (held_in _ _ _ Inv1 Ex _ I).
Qed.
Lemma findTrusted_inv : forall q s r, sinv ha (verified h) s -> findTrusted en s q = Ok r -> sinv ha (verified h) (fst r) /\ forall t, snd r = Some t -> trust H t /\ q_accepts q (ct_pk t).
Proof using Le.
  intros q s r [A V U K Mv Mu] F. unfold findTrusted in F. destruct (ta_findInterest _ _ _ _ _) as [x|] eqn:Fa; cbn [bind] in F; [|discriminate]. destruct (anch_step _ _ _ A Fa) as [A1 Fnd].
  destruct (snd x) as [c|] eqn:Sx.
  - injection F as <-. cbn [fst snd]. split; [constructor; auto|]. intros t E. injection E as <-. destruct (Fnd _ eq_refl). split; [|assumption]. eapply T_anchor; eauto.
  - injection F as <-. cbn [fst snd]. destruct (cc_find (en_sys en) q (st_ver s) _ V eq_refl) as (V1 & Mx & Sub & Fv). split; [constructor; cbn [st_anch st_ver st_unv]; auto; congruence|].
    intros t E. destruct (Fv t E) as (Ac & (z & Iz & Ez) & na & Na & L). split; [|exact Ac]. eapply T_verified; eauto. rewrite <- Ez. auto.
Qed.
Lemma kept_all : forall s, sinv ha (verified h) s -> sinv ha (verified H) s.
Proof using Le. intros s [A V U K Mv Mu]. constructor; auto. intros z I. apply V_kept; [auto|]. intro Q. rewrite Q in Le. discriminate. Qed.
Lemma settle_inv : forall s p q0 chain q t r, sinv ha (verified h) s -> trust H t -> q_accepts q (ct_pk t) -> chain_ok H q0 chain q -> settle verify en s p chain t = Ok r ->
  sinv ha (verified H) (fst r) /\ outcome H p q0 (snd r).
Proof using Le.
  intros s p q0 chain q t r S T A C F. unfold settle in F. destruct (verifyChain verify t chain) as [k x] eqn:R. cbn [fst snd] in F. destruct (cacheAll _ _ _) as [ver|] eqn:Ca; cbn [bind] in F; [|discriminate]. injection F as <-. cbn [fst snd].
  destruct (chain_verified _ _ _ _ _ _ _ T A C R) as (X1 & X2 & X3). pose proof (kept_all _ S) as [Sa Sv Su Sk Mv Mu]. destruct (cacheAll_inv (verified H) (en_sys en) k (st_ver s) ver Sv Sk (fun y I => V_linked _ _ _ (X1 y I)) Ca) as (V' & K' & M').
  split; [constructor; cbn [st_anch st_ver st_unv]; auto; congruence|]. unfold outcome. destruct x as [c|]; [|exact I]. unfold original. destruct (verify (VPkt p) (Some c)) eqn:Vp; [|exact I]. destruct (X3 c eq_refl) as [Tc Qc]. left. exists c. auto.
Qed.
Definition req_ok (p : vpkt) (q0 : qint) (rec : store -> list cert -> list (list key) -> creq -> res (store * vres)) : Prop :=
  forall s chain seen rq r, sinv ha (verified h) s -> chain_ok H q0 chain (cq_int rq) -> rec s chain seen rq = Ok r -> sinv ha (verified H) (fst r) /\ outcome H p q0 (snd r).
Lemma validateCert_inv : forall p q0 rec s chain seen q c r, req_ok p q0 rec -> sinv ha (verified h) s -> chain_ok H q0 chain q -> q_accepts q (ct_pk c) -> validateCert rec en s chain seen c = Ok r ->
  sinv ha (verified H) (fst r) /\ outcome H p q0 (snd r).
Proof using Le.
  intros p q0 rec s chain seen q c r Rc S C A F. unfold validateCert in F. pose proof (kept_all _ S) as S'. destruct (ct_period c) as [[nb na]|] eqn:P; [|injection F as <-; split; [exact S'|exact I]].
  destruct ((nb <=? en_sys en) && (en_sys en <=? na)) eqn:V; [|injection F as <-; split; [exact S'|exact I]].
  destruct (en_pol en (VCert c) chain) as [er| |rq|er|] eqn:Po; try (injection F as <-; split; [exact S'|exact I]).
  apply (Rc _ _ _ _ _ S) in F; [exact F|]. cbn [chain_ok]. split; [|exists q; auto]. exists e, en, chain, rq. splits; auto; [now left|]. exists nb, na. split; [exact P|lia].
Qed.
Lemma gotCert_inv : forall p q0 rec s chain seen q c r, req_ok p q0 rec -> sinv ha (verified h) s -> chain_ok H q0 chain q -> q_accepts q (ct_pk c) -> gotCert rec en s chain seen c = Ok r ->
  sinv ha (verified H) (fst r) /\ outcome H p q0 (snd r).
Proof using Le.
  intros p q0 rec s chain seen q c r Rc S C A F. unfold gotCert in F. destruct (cc_insert _ _ _) as [u|er] eqn:E.
  - eapply validateCert_inv; [exact Rc| |exact C|exact A|exact F]. destruct S as [Sa Sv Su Sk Mv Mu]. destruct (cinv_insert _ _ _ _ Su E) as (U' & _ & M'). constructor; cbn [st_anch st_ver st_unv]; auto; congruence.
  - destruct (catchable er); [|discriminate]. injection F as <-. split; [exact (kept_all _ S)|exact I].
Qed.
Lemma fetch_inv : forall p q0 rec again s chain seen rq r, req_ok p q0 rec -> sinv ha (verified h) s -> chain_ok H q0 chain (cq_int rq) -> fetch kind rec again en s p chain seen rq = Ok r ->
  sinv ha (verified H) (fst r) /\ outcome H p q0 (snd r).
Proof using Le.
  intros p q0 rec again s chain seen rq r Rc S C F. unfold fetch in F. destruct S as [Sa Sv Su Sk Mv Mu]. destruct (cc_find (en_sys en) (cq_int rq) (st_unv s) _ Su eq_refl) as (U1 & Mx & _ & Fu).
  set (s1 := mkSt _ _ _) in F. assert (S1 : sinv ha (verified h) s1) by (constructor; cbn [s1 st_anch st_ver st_unv]; auto; congruence).
  destruct (snd (cc_findInterest (en_sys en) (cq_int rq) (st_unv s))) as [c|].
  - destruct (Fu c eq_refl) as (A & _). destruct again; [eapply gotCert_inv; eauto|eapply validateCert_inv; eauto].
  - injection F as <-. split; [exact (kept_all _ S1)|]. cbn [snd]. unfold doFetch. destruct kind as [|only|]; [exact C| |exact I]. destruct (vp_face p =? 0)%N; destruct only; try exact C; exact I.
Qed.
Lemma request_inv : forall p q0 fuel, req_ok p q0 (request verify maxDepth kind fuel en p).
Proof using Le.
  intros p q0. induction fuel as [|fuel IH]; intros s chain seen rq r S C F; cbn [request] in F; [discriminate|]. pose proof (kept_all _ S) as S'.
  destruct (maxDepth <=? nlen chain)%N; [injection F as <-; split; [exact S'|exact I]|]. destruct (names_eqb (q_name (cq_int rq)) digestIdentity) eqn:Dg.
  - injection F as <-. split; [exact S'|]. cbn [snd]. unfold outcome, original. destruct (verify (VPkt p) None) eqn:V; [|exact I]. right. split; [exact V|]. apply names_eqb_eq in Dg.
    destruct chain as [|c chain]; cbn [chain_ok] in C; [left; congruence|right]. destruct C as (Ap & _). eauto.
  - destruct (existsb _ _); [injection F as <-; split; [exact S'|exact I]|]. destruct (findTrusted en s (cq_int rq)) as [x|] eqn:Ft; cbn [bind] in F; [|discriminate]. destruct (findTrusted_inv _ _ _ S Ft) as [S1 Tr].
    destruct (snd x) as [t|] eqn:Sx; [|eapply fetch_inv; eauto]. destruct (Tr t eq_refl) as [T A]. eapply settle_inv; eauto.
Qed.
End Call.

(* ---- the whole validator: trust ---- *)
Definition started_as (h : list vevent) (i : N) (p : vpkt) (q0 : qint) : Prop :=
  exists h2 en h1 rq, h = h2 ++ VStart en p :: h1 /\ started h1 = i /\ en_pol en (VPkt p) [] = PARequest rq /\ cq_int rq = q0 /\ (vp_isInterest p = true -> vp_sigOk p = true).
Lemma started_mono : forall e h i p q0, started_as h i p q0 -> started_as (e :: h) i p q0.
Proof. intros e h i p q0 (h2 & en & h1 & rq & -> & X). exists (e :: h2), en, h1, rq. split; [reflexivity|exact X]. Qed.
Definition jok (h : list vevent) (j : vjob) : Prop := exists q0, started_as h (vj_id j) (vj_pkt j) q0 /\ chain_ok h q0 (vj_chain j) (cq_int (vj_req j)).
Lemma jok_mono : forall e h j, jok h j -> jok (e :: h) j.
Proof. intros e h j (q0 & A & B). exists q0. split; [now apply started_mono|now apply chain_mono]. Qed.
Record vinv (h : list vevent) (s : vstate) : Prop := {
  vi_store : sinv (anchor_history h) (verified h) (vs_store s);
  vi_jobs : forall j, In j (vs_jobs s) -> jok h j;
  vi_next : vs_next s = started h }.
Notation good := (good verify).
Lemma del_in : forall i l j, In j (job_del i l) -> In j l.
Proof. intros i l j I. unfold job_del in I. apply filter_In in I. apply I. Qed.
Lemma jfind_in : forall i l j, job_find i l = Some j -> In j l /\ vj_id j = i.
Proof. intros i l j F. unfold job_find in F. apply find_some in F as [A B]. split; [exact A|]. lia. Qed.
Lemma conclude_vinv : forall h i p q0 jobs n r s' o, sinv (anchor_history h) (verified h) (fst r) -> outcome h p q0 (snd r) -> started_as h i p q0 -> (forall j, In j jobs -> jok h j) -> n = started h ->
  conclude i p jobs n r = (s', o) -> vinv h s' /\ forall k, In (OVerdict k VSuccess) o -> good h k.
Proof.
  intros h i p q0 jobs n r s' o S O St J N F. unfold conclude in F. destruct (snd r) as [v|chain seen rq sent|er]; injection F as <- <-.
  - split; [constructor; auto|]. intros k [E|[]]. injection E as <- ->. cbn [outcome] in O. destruct St as (h2 & en & h1 & rq & E & Ei & Po & Eq & Si). exists h2, en, p, h1. splits; auto. right. exists rq. rewrite Eq. auto.
  - split; [constructor; cbn [vs_store vs_jobs vs_next]; auto|].
    + intros j [<-|I]; [|auto]. exists q0. cbn [vj_id vj_pkt vj_chain vj_req]. auto.
    + intros k I. apply in_map_iff in I as (x & E & _). discriminate.
  - split; [constructor; auto|]. intros k [E|[E|[]]]; discriminate.
Qed.
Lemma history_cons : forall e h, anchor_history (e :: h) = match e with VAnch o => [o] | _ => match looks e with Some en => [TAFindI (en_steady en) (en_disk en) (en_ord en) any_q] | None => [] end end ++ anchor_history h.
Proof. reflexivity. Qed.
Lemma look_sinv : forall e h en s, looks e = Some en -> sinv (anchor_history h) (verified h) s -> sinv (anchor_history (e :: h)) (verified h) s.
Proof.
  intros e h en s L [A V U K Mv Mu]. constructor; auto. rewrite history_cons. destruct e; cbn [looks] in L |- *; try discriminate L; injection L as ->; cbn [app]; apply ainv_mono; auto; discriminate.
Qed.
Lemma quiet_sinv : forall e h s, match e with VAnch _ | VResetVerified => False | _ => True end -> looks e = None -> sinv (anchor_history h) (verified h) s -> sinv (anchor_history (e :: h)) (verified (e :: h)) s.
Proof.
  intros e h s N L [A V U K Mv Mu]. constructor; auto; [rewrite history_cons; destruct e; cbn [looks] in *; try discriminate; try contradiction; exact A|]. intros z I. apply V_kept; [auto|]. intros ->. contradiction.
Qed.
Lemma started_cons : forall e h, started (e :: h) = ((if is_start e then 1 else 0) + started h)%N.
Proof. intros e h. unfold started. cbn [filter]. destruct (is_start e); [rewrite nlen_cons; lia|lia]. Qed.
Lemma still : forall e h s, is_start e = false -> vinv h s -> sinv (anchor_history (e :: h)) (verified (e :: h)) (vs_store s) -> vinv (e :: h) s.
Proof. intros e h s Ns [S J N] S'. constructor; auto; [intros j I; apply jok_mono; auto|]. rewrite started_cons, Ns. rewrite N. lia. Qed.
Ltac idle Inv Le := split; [apply still; [reflexivity|exact Inv|apply (kept_all _ _ _ Le); eapply look_sinv; [exact Le|apply Inv]]|intros k []].
Lemma step_vinv : forall e h s s' o, steady e -> vinv h s -> step verify maxDepth kind e s = Ok (s', o) -> vinv (e :: h) s' /\ forall i, In (OVerdict i VSuccess) o -> good (e :: h) i.
Proof.
  intros e h s s' o Sd Inv F. destruct Inv as [S J N] eqn:EI. clear EI.
  assert (Jd : forall i j, In j (job_del i (vs_jobs s)) -> jok (e :: h) j) by (intros i j I; apply jok_mono, J; eapply del_in; eauto).
  assert (Inv0 : vinv h s) by (constructor; auto).
  destruct e as [en p|en i pk oc|i|en i|en i|i|ao|en c|]; unfold step in F.
  - (* start *)
    assert (Le : looks (VStart en p) = Some en) by reflexivity. pose proof (look_sinv _ _ _ _ Le S) as S1. pose proof (kept_all _ _ _ Le _ S1) as S2. assert (N' : (vs_next s + 1)%N = started (VStart en p :: h)) by (rewrite started_cons; cbn [is_start]; lia).
    assert (Jm : forall j, In j (vs_jobs s) -> jok (VStart en p :: h) j) by (intros j I; apply jok_mono; auto). unfold start in F.
    assert (Plain : forall r v, r = (vs_store s, v) -> match v with RDone VSuccess => False | RPend _ _ _ _ => False | _ => True end -> conclude (vs_next s) p (vs_jobs s) (vs_next s + 1) r = (s', o) -> vinv (VStart en p :: h) s' /\ forall i, In (OVerdict i VSuccess) o -> good (VStart en p :: h) i).
    { intros r v -> Hv Cn. unfold conclude in Cn. cbn [fst snd] in Cn. destruct v as [v| |er]; [|destruct Hv|]; injection Cn as <- <-; (split; [constructor; auto|]); intros k [E|I]; try (injection E as _ ->; contradiction Hv); try discriminate; try destruct I as [I|[]]; try discriminate. destruct I. }
    destruct (vp_isInterest p && negb (vp_sigOk p)) eqn:Mal; [apply okinj in F; refine (Plain _ _ eq_refl _ F); exact I|]. assert (Si : vp_isInterest p = true -> vp_sigOk p = true) by (intro X; rewrite X in Mal; destruct (vp_sigOk p); [reflexivity|discriminate]).
    destruct (en_pol en (VPkt p) []) as [er| |rq|er|] eqn:Po; try (apply okinj in F; refine (Plain _ _ eq_refl _ F); exact I).
    + injection F as <- <-. split; [constructor; auto|]. intros k [E|[]]. injection E as <-. exists [], en, p, h. splits; auto.
    + destruct (request _ _ _ _ _ _ _ _ _ _) as [r|] eqn:R; cbn [bind] in F; [|discriminate]. apply okinj in F.
      destruct (request_inv (VStart en p) h en Le p (cq_int rq) (fuel0 maxDepth) _ _ _ _ _ S1 (eq_refl : chain_ok (VStart en p :: h) (cq_int rq) [] (cq_int rq)) R) as [S3 O].
      eapply conclude_vinv; [exact S3|exact O| |exact Jm|exact N'|exact F]. exists [], en, h, rq. splits; auto.
  - (* data *)
    assert (Le : looks (VData en i pk oc) = Some en) by reflexivity. pose proof (look_sinv _ _ _ _ Le S) as S1. destruct (job_find i (vs_jobs s)) as [j|] eqn:Fj; [|injection F as <- <-; idle Inv0 Le]. apply jfind_in in Fj as [Ij Ei].
    destruct (vj_phase j); [|injection F as <- <-; idle Inv0 Le]. destruct (q_matches _ _) eqn:Qm; [|injection F as <- <-; idle Inv0 Le]. apply q_matches_iff in Qm.
    destruct (jok_mono (VData en i pk oc) _ _ (J _ Ij)) as (q0 & St & Ck). rewrite Ei in St. assert (N' : vs_next s = started (VData en i pk oc :: h)) by (rewrite started_cons; cbn [is_start]; lia).
    destruct oc as [pd|].
    + destruct (gotCert _ _ _ _ _ _) as [r|] eqn:R; cbn [bind] in F; [|discriminate]. apply okinj in F. destruct (gotCert_inv _ _ _ Le (vj_pkt j) q0 _ _ _ _ (cq_int (vj_req j)) (mkCert pk pd) _ (request_inv _ _ _ Le _ _ _) S1 Ck Qm R) as [S3 O].
      eapply conclude_vinv; [exact S3|exact O|exact St|apply Jd|exact N'|exact F].
    + apply okinj in F. refine (conclude_vinv _ _ _ q0 _ _ _ _ _ _ _ St (Jd i) N' F); [exact (kept_all _ _ _ Le _ S1)|exact I].
  - (* nack *)
    assert (Q : sinv (anchor_history (VNack i :: h)) (verified (VNack i :: h)) (vs_store s)) by (apply quiet_sinv; [exact I|reflexivity|exact S]). assert (N' : vs_next s = started (VNack i :: h)) by (rewrite started_cons; cbn [is_start]; lia).
    destruct (job_find i (vs_jobs s)) as [j|] eqn:Fj; [|injection F as <- <-; split; [now apply still|intros k []]]. apply jfind_in in Fj as [Ij Ei]. destruct (jok_mono (VNack i) _ _ (J _ Ij)) as (q0 & St & Ck). rewrite Ei in St.
    destruct (vj_phase j); [|injection F as <- <-; split; [now apply still|intros k []]]. destruct (0 <=? _).
    + injection F as <- <-. split; [|intros k [E|[]]; discriminate]. constructor; cbn [vs_store vs_jobs vs_next]; auto. intros j' [<-|I']; [|eapply Jd; eauto]. exists q0. cbn [vj_id vj_pkt vj_chain vj_req cq_int]. auto.
    + apply okinj in F. refine (conclude_vinv _ _ _ q0 _ _ _ _ _ _ _ St (Jd i) N' F); [exact Q|exact I].
  - (* timeout *)
    assert (Le : looks (VTimeout en i) = Some en) by reflexivity. pose proof (look_sinv _ _ _ _ Le S) as S1. destruct (job_find i (vs_jobs s)) as [j|] eqn:Fj; [|injection F as <- <-; idle Inv0 Le]. apply jfind_in in Fj as [Ij Ei].
    destruct (vj_phase j); [|injection F as <- <-; idle Inv0 Le]. destruct (jok_mono (VTimeout en i) _ _ (J _ Ij)) as (q0 & St & Ck). rewrite Ei in St. assert (N' : vs_next s = started (VTimeout en i :: h)) by (rewrite started_cons; cbn [is_start]; lia).
    destruct (0 <=? _).
    + destruct (fetch _ _ _ _ _ _ _ _ _) as [r|] eqn:R; cbn [bind] in F; [|discriminate]. apply okinj in F. destruct (fetch_inv _ _ _ Le (vj_pkt j) q0 _ _ _ _ _ (mkCQ (cq_int (vj_req j)) (cq_left (vj_req j) - 1) (cq_wait (vj_req j))) _ (request_inv _ _ _ Le _ _ _) S1 Ck R) as [S3 O].
      eapply conclude_vinv; [exact S3|exact O|exact St|apply Jd|exact N'|exact F].
    + apply okinj in F. refine (conclude_vinv _ _ _ q0 _ _ _ _ _ _ _ St (Jd i) N' F); [exact (kept_all _ _ _ Le _ S1)|exact I].
  - (* wake *)
    assert (Le : looks (VWake en i) = Some en) by reflexivity. pose proof (look_sinv _ _ _ _ Le S) as S1. destruct (job_find i (vs_jobs s)) as [j|] eqn:Fj; [|injection F as <- <-; idle Inv0 Le]. apply jfind_in in Fj as [Ij Ei].
    destruct (vj_phase j); [injection F as <- <-; idle Inv0 Le|]. destruct (jok_mono (VWake en i) _ _ (J _ Ij)) as (q0 & St & Ck). rewrite Ei in St. assert (N' : vs_next s = started (VWake en i :: h)) by (rewrite started_cons; cbn [is_start]; lia).
    destruct (fetch _ _ _ _ _ _ _ _ _) as [r|] eqn:R; cbn [bind] in F; [|discriminate]. apply okinj in F. destruct (fetch_inv _ _ _ Le (vj_pkt j) q0 _ _ _ _ _ _ _ (request_inv _ _ _ Le _ _ _) S1 Ck R) as [S3 O].
    eapply conclude_vinv; [exact S3|exact O|exact St|apply Jd|exact N'|exact F].
  - (* drop *)
    assert (Q : sinv (anchor_history (VDrop i :: h)) (verified (VDrop i :: h)) (vs_store s)) by (apply quiet_sinv; [exact I|reflexivity|exact S]). assert (N' : vs_next s = started (VDrop i :: h)) by (rewrite started_cons; cbn [is_start]; lia).
    destruct (job_find i (vs_jobs s)) as [j|] eqn:Fj; [|injection F as <- <-; split; [now apply still|intros k []]]. injection F as <- <-. split; [|intros k [E|[]]; discriminate]. constructor; auto. apply Jd.
  - (* anchors *)
    destruct (ta_step ao (st_anch (vs_store s))) as [[a' x]|] eqn:T; cbn [bind fst snd] in F; [|discriminate]. injection F as <- <-. destruct S as [A V U K Mv Mu]. split.
    + constructor; cbn [vs_store vs_jobs vs_next]; [|intros j I; apply jok_mono; auto|rewrite started_cons; cbn [is_start]; lia]. constructor; cbn [st_anch st_ver st_unv]; auto.
      * rewrite history_cons. cbn [app]. eapply step_ainv; [exact Sd|exact A|exact T].
      * intros z I. apply V_kept; [auto|discriminate].
    + intros k I. destruct x as [[er|]|c]; cbn [In] in I; try contradiction. destruct I as [I|[]]; discriminate.
  - (* cache verified *)
    assert (Q : sinv (anchor_history (VCacheVerified en c :: h)) (verified (VCacheVerified en c :: h)) (vs_store s)) by (apply quiet_sinv; [exact I|reflexivity|exact S]).
    destruct (cc_insert _ _ _) as [v|er] eqn:E.
    + injection F as <- <-. split; [|intros k []]. destruct Q as [A V U K Mv Mu]. destruct (cinv_insert _ _ _ _ V E) as (V' & B & M). constructor; cbn [vs_store vs_jobs vs_next]; [|intros j I; apply jok_mono; auto|rewrite started_cons; cbn [is_start]; lia].
      constructor; cbn [st_anch st_ver st_unv]; auto; [|congruence]. intros z I. destruct (B z I) as [X|X]; [auto|]. rewrite X. apply V_user.
    + destruct (catchable er); [|discriminate]. injection F as <- <-. split; [now apply still|]. intros k [E'|[]]. discriminate.
  - (* reset *)
    injection F as <- <-. split; [|intros k []]. destruct S as [A V U K Mv Mu]. constructor; cbn [vs_store vs_jobs vs_next]; [|intros j I; apply jok_mono; auto|rewrite started_cons; cbn [is_start]; lia].
    constructor; cbn [st_anch st_ver st_unv]; auto; [apply cinv_clear|intros z []].
Qed.
Lemma run_snoc : forall l e s s2 outs2, run verify maxDepth kind (l ++ [e]) s = Ok (s2, outs2) <-> exists s1 outs1 o, run verify maxDepth kind l s = Ok (s1, outs1) /\ step verify maxDepth kind e s1 = Ok (s2, o) /\ outs2 = outs1 ++ [o].
Proof.
  induction l as [|x l IH]; intros e s s2 outs2; cbn [app run].
  - split.
    + destruct (step _ _ _ e s) as [[s1 o]|] eqn:St; cbn [bind fst snd]; [|discriminate]. intro H. injection H as <- <-. exists s, [], o. auto.
    + intros (s1 & outs1 & o & H & St & ->). injection H as <- <-. rewrite St. reflexivity.
  - destruct (step _ _ _ x s) as [[s1 o]|] eqn:St; cbn [bind fst snd].
    2:{ split; [discriminate|]. intros (? & ? & ? & H & _). discriminate. }
    split.
    + destruct (run _ _ _ (l ++ [e]) s1) as [[s3 outs3]|] eqn:R; cbn [bind fst snd]; [|discriminate]. intro H. injection H as <- <-. apply IH in R as (s4 & outs4 & o4 & R4 & St4 & ->). exists s4, (o :: outs4), o4. rewrite R4. cbn [bind fst snd]. auto.
    + intros (s4 & outs4 & o4 & H & St4 & ->). destruct (run _ _ _ l s1) as [[s5 outs5]|] eqn:R; cbn [bind fst snd] in H; [|discriminate]. injection H as <- <-.
      assert (R2 : run verify maxDepth kind (l ++ [e]) s1 = Ok (s2, outs5 ++ [o4])) by (apply IH; eauto 6). rewrite R2. reflexivity.
Qed.
Lemma vinv_new : vinv [] vs_new.
Proof. constructor; cbn [vs_new vs_store vs_jobs vs_next]; [|intros j []|reflexivity]. constructor; cbn [st_new st_anch st_ver st_unv]; try reflexivity; [apply empty_ainv|apply cinv_new|apply cinv_new|intros z []]. Qed.
Lemma run_vinv : forall l s outs, Forall steady l -> run verify maxDepth kind l vs_new = Ok (s, outs) -> vinv (rev l) s.
Proof.
  induction l as [|e l IH] using rev_ind; intros s outs F R; [injection R as <- <-; apply vinv_new|]. apply Forall_app in F as [F1 F2]. inversion F2 as [|? ? Fe _]; subst. apply run_snoc in R as (s1 & outs1 & o & R & St & _).
  rewrite rev_app_distr. cbn [rev app]. eapply step_vinv; [exact Fe|eapply IH; eauto|exact St].
Qed.
End V.

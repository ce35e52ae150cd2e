From Coq Require Import List ZArith Lia ZifyBool ZifyNat ZifyN.
From Verif Require Import Base BaseLemmas S_Name P_NameOrder M_Ims S_Ims P_Ims M_CertCache S_CertCache P_CertCache M_Anchors S_Anchors P_Anchors M_Validator S_Validator P_Validator.
Import ListNotations.
Open Scope Z_scope.

Section W.
Variable verify : vitem -> option cert -> bool.
Variable maxDepth : N.
Variable kind : fkind.
Notation step := (step verify maxDepth kind).
Notation run := (run verify maxDepth kind).

(* ---- what a call may leave pending ---- *)
Definition sent_ok (l : list (bool * bool)) : Prop := l = [(false, true)] \/ l = [(true, true)] \/ l = [(true, false); (false, true)].
Definition zlen {A} (l : list A) : Z := Z.of_nat (length l).
(* chain of length n' and k' retries left, after a call that started with n and k *)
Definition later (R n k n' k' : Z) : Prop := k' <= R /\ (n < n' \/ (n = n' /\ k' <= k)).
Definition pend_ok (R n k : Z) (r : vres) : Prop :=
  match r with RPend chain _ rq sent => later R n k (zlen chain) (cq_left rq) /\ zlen chain < Z.of_N maxDepth /\ sent_ok sent | _ => True end.
Definition few (R : Z) (en : venv) : Prop := forall it chain rq, en_pol en it chain = PARequest rq -> cq_left rq <= R.
Definition rec_pend (R : Z) (rec : store -> list cert -> list (list key) -> creq -> res (store * vres)) : Prop :=
  forall s chain seen rq r, cq_left rq <= R -> rec s chain seen rq = Ok r -> pend_ok R (zlen chain) (cq_left rq) (snd r).
Lemma later_trans : forall R n k n1 k1 n2 k2, k1 <= R -> later R n k n1 k1 -> later R n1 k1 n2 k2 -> later R n k n2 k2.
Proof. unfold later. intros. lia. Qed.
Lemma pend_weak : forall R n k n1 k1 r, k1 <= R -> later R n k n1 k1 -> pend_ok R n1 k1 r -> pend_ok R n k r.
Proof. intros R n k n1 k1 r H L P. destruct r; cbn [pend_ok] in *; auto. destruct P as (A & B & C). splits; auto. eapply later_trans; eauto. Qed.
Lemma zlen_cons : forall A (x : A) l, zlen (x :: l) = zlen l + 1.
Proof. intros. unfold zlen. cbn [length]. lia. Qed.
Lemma zlen_nlen : forall A (l : list A), zlen l = Z.of_N (nlen l).
Proof. intros. unfold zlen, nlen. lia. Qed.
Lemma validateCert_pend : forall R rec en s chain seen c r, few R en -> rec_pend R rec -> validateCert rec en s chain seen c = Ok r -> pend_ok R (zlen chain + 1) R (snd r).
Proof using.
  intros R rec en s chain seen c r Fe Rc F. unfold validateCert in F. destruct (ct_period c) as [[nb na]|]; [|apply okinj in F; subst r; exact I]. destruct (_ && _); [|apply okinj in F; subst r; exact I].
  destruct (en_pol en (VCert c) chain) as [er| |rq|er|] eqn:Po; try (apply okinj in F; subst r; exact I). pose proof (Fe _ _ _ Po) as Lr. apply Rc in F; [|exact Lr]. rewrite zlen_cons in F. eapply pend_weak; [| |exact F]; [exact Lr|]. unfold later. lia.
Qed.
Lemma gotCert_pend : forall R rec en s chain seen c r, few R en -> rec_pend R rec -> gotCert rec en s chain seen c = Ok r -> pend_ok R (zlen chain + 1) R (snd r).
Proof using.
  intros R rec en s chain seen c r Fe Rc F. unfold gotCert in F. destruct (cc_insert _ _ _) as [u|er]; [eapply validateCert_pend; eauto|]. destruct (catchable er); [|discriminate]. apply okinj in F; subst r. exact I.
Qed.
Lemma fetch_pend : forall R rec again en s p chain seen rq r, few R en -> rec_pend R rec -> cq_left rq <= R -> zlen chain < Z.of_N maxDepth -> fetch kind rec again en s p chain seen rq = Ok r -> pend_ok R (zlen chain) (cq_left rq) (snd r).
Proof using.
  intros R rec again en s p chain seen rq r Fe Rc L D F. unfold fetch in F. destruct (snd _) as [c|].
  - assert (P : pend_ok R (zlen chain + 1) R (snd r)) by (destruct again; [eapply gotCert_pend; eauto|eapply validateCert_pend; eauto]). eapply pend_weak; [| |exact P]; [lia|unfold later; lia].
  - apply okinj in F; subst r. cbn [snd]. unfold doFetch, sent_ok. assert (Lr : later R (zlen chain) (cq_left rq) (zlen chain) (cq_left rq)) by (unfold later; lia). destruct kind as [|only|]; [|destruct (vp_face p =? 0)%N; destruct only|]; cbn [pend_ok]; unfold sent_ok; auto 6.
Qed.
Lemma request_pend : forall R en p fuel, few R en -> rec_pend R (request verify maxDepth kind fuel en p).
Proof using.
  intros R en p fuel Fe. induction fuel as [|fuel IH]; intros s chain seen rq r L F; cbn [request] in F; [discriminate|].
  destruct (N.leb_spec maxDepth (nlen chain)) as [D|D]; [apply okinj in F; subst r; exact I|]. destruct (names_eqb _ _).
  - apply okinj in F; subst r. cbn [snd]. unfold original. destruct (verify _ _); exact I.
  - destruct (existsb _ _); [apply okinj in F; subst r; exact I|]. destruct (findTrusted _ _ _) as [x|]; cbn [bind] in F; [|discriminate]. destruct (snd x) as [t|].
    + unfold settle in F. destruct (cacheAll _ _ _) as [ver|]; cbn [bind] in F; [|discriminate]. apply okinj in F; subst r. exact I.
    + eapply fetch_pend; eauto. rewrite zlen_nlen. lia.
Qed.

(* ---- the outputs about one validation ---- *)
Definition cnt (f : vout -> bool) (t : list vout) : Z := zlen (filter f t).
Lemma cnt_app : forall f a b, cnt f (a ++ b) = cnt f a + cnt f b.
Proof. intros. unfold cnt, zlen. rewrite filter_app, app_length. lia. Qed.
Definition last_of (t : list vout) : option vout := match rev t with [] => None | x :: _ => Some x end.
Lemma last_snoc : forall t a x, last_of (t ++ a ++ [x]) = Some x.
Proof. intros. unfold last_of. rewrite app_assoc, rev_app_distr. reflexivity. Qed.
Definition pos (k : Z) : Z := Z.max k 0.
(* R retries at most: the numbers of Interests and of delays so far are within the bounds of n certificates obtained and k retries left *)
Record within (i : N) (R n k : Z) (extra : Z) (t : list vout) : Prop := {
  w_int : cnt (is_interest i true) t <= n * (R + 1) + R - pos k + extra;
  w_dir : cnt (is_interest i false) t <= n * (R + 1) + R - pos k + extra;
  w_wait : cnt (is_wait i) t <= n * R + R - pos k }.
Definition job_inv (i : N) (R : Z) (next : N) (mj : option vjob) (t : list vout) : Prop :=
  match mj with
  | Some j =>
      vj_id j = i /\ cnt (is_verdict i) t = 0 /\ zlen (vj_chain j) < Z.of_N maxDepth /\ cq_left (vj_req j) <= R /\
      match vj_phase j with
      | PFetch => within i R (zlen (vj_chain j)) (cq_left (vj_req j)) 1 t /\ exists d, last_of t = Some (OInterest i (cq_int (vj_req j)) d true)
      | PWait => 0 <= cq_left (vj_req j) /\ within i R (zlen (vj_chain j)) (cq_left (vj_req j)) 0 t /\ exists ms, last_of t = Some (OWait i ms)
      end
  | None => if (i <? next)%N
            then cnt (is_verdict i) t = 1 /\ cnt (is_interest i true) t <= Z.of_N maxDepth * (R + 1) /\ cnt (is_interest i false) t <= Z.of_N maxDepth * (R + 1) /\
                 cnt (is_wait i) t <= Z.of_N maxDepth * R /\ exists v, last_of t = Some (OVerdict i v)
            else t = []
  end.
Lemma within_max : forall i R n k x t, 0 <= R -> 0 <= n < Z.of_N maxDepth -> 0 <= x <= 1 -> within i R n k x t ->
  cnt (is_interest i true) t <= Z.of_N maxDepth * (R + 1) /\ cnt (is_interest i false) t <= Z.of_N maxDepth * (R + 1) /\ cnt (is_wait i) t <= Z.of_N maxDepth * R.
Proof using.
  intros i R n k x t R0 Hn Hx [A B C]. unfold pos in *. assert (n * (R + 1) + (R + 1) <= Z.of_N maxDepth * (R + 1)) by nia. assert (n * R + R <= Z.of_N maxDepth * R) by nia. splits; lia.
Qed.
Lemma within_later : forall i R n k n' k' t, 0 <= R -> later R n k n' k' -> k <= R -> within i R n k 0 t -> within i R n' k' 0 t.
Proof using.
  intros i R n k n' k' t R0 L Lk [A B C]. unfold later, pos in *. destruct L as [L1 L2]. destruct L2 as [L2|[Q L2]].
  - assert (n * (R + 1) + R + 1 <= n' * (R + 1)) by nia. assert (n * R + R <= n' * R) by nia. constructor; unfold pos; lia.
  - subst n'. constructor; unfold pos; lia.
Qed.
Lemma filter_sent : forall i q sent, sent_ok sent -> let o := map (fun x => OInterest i q (fst x) (snd x)) sent in
  filter (about i) o = o /\ cnt (is_verdict i) o = 0 /\ cnt (is_interest i true) o = 1 /\ cnt (is_interest i false) o <= 1 /\ cnt (is_wait i) o = 0 /\ exists a d, o = a ++ [OInterest i q d true].
Proof using.
  intros i q sent [ -> |[ -> | -> ]]; cbn [map fst snd]; unfold cnt; cbn [filter about is_verdict is_interest is_wait]; rewrite ?N.eqb_refl; cbn [andb Bool.eqb filter]; splits; try reflexivity; try (unfold zlen; cbn [length]; lia); [exists [], false; reflexivity|exists [], true; reflexivity|exists [OInterest i q true false], false; reflexivity].
Qed.
Lemma cnt_verdict : forall i v, cnt (is_verdict i) [OVerdict i v] = 1 /\ cnt (is_interest i true) [OVerdict i v] = 0 /\ cnt (is_interest i false) [OVerdict i v] = 0 /\ cnt (is_wait i) [OVerdict i v] = 0.
Proof using. intros. unfold cnt, zlen. cbn [filter is_verdict is_interest is_wait]. rewrite N.eqb_refl. cbn [length]. lia. Qed.
Lemma cnt_wait : forall i ms, cnt (is_verdict i) [OWait i ms] = 0 /\ cnt (is_interest i true) [OWait i ms] = 0 /\ cnt (is_interest i false) [OWait i ms] = 0 /\ cnt (is_wait i) [OWait i ms] = 1.
Proof using. intros. unfold cnt, zlen. cbn [filter is_verdict is_interest is_wait]. rewrite N.eqb_refl. cbn [length]. lia. Qed.

(* ---- jobs ---- *)
Definition ids (l : list vjob) : list N := map vj_id l.
Lemma jfind_none : forall i l, ~ In i (ids l) -> job_find i l = None.
Proof. intros i l N. unfold job_find. destruct (find _ l) as [j|] eqn:F; [|reflexivity]. apply find_some in F as [A B]. contradiction N. apply in_map_iff. exists j. split; [lia|exact A]. Qed.
Lemma jfind_cons : forall i j l, job_find i (j :: l) = if (vj_id j =? i)%N then Some j else job_find i l.
Proof. intros. unfold job_find. cbn [find]. destruct (vj_id j =? i)%N; reflexivity. Qed.
Lemma jfind_del : forall i k l, job_find k (job_del i l) = if (i =? k)%N then None else job_find k l.
Proof.
  intros i k l. unfold job_del, job_find. induction l as [|j l IH]; cbn [filter find]; [destruct (i =? k)%N; reflexivity|]. destruct (N.eqb_spec (vj_id j) i) as [E|E]; cbn [negb].
  - rewrite IH. destruct (N.eqb_spec i k) as [Q|Q]; [reflexivity|]. destruct (N.eqb_spec (vj_id j) k); [congruence|reflexivity].
  - cbn [find]. rewrite IH. destruct (N.eqb_spec (vj_id j) k) as [Q|Q]; [|reflexivity]. destruct (N.eqb_spec i k); [congruence|reflexivity].
Qed.
Lemma ids_del : forall i l x, In x (ids (job_del i l)) -> In x (ids l).
Proof. intros i l x I. unfold ids in *. apply in_map_iff in I as (j & E & I). apply in_map_iff. exists j. split; [exact E|eapply del_in; eauto]. Qed.
(* every event concerns at most one validation i; a step either leaves i alone or concludes *)
Definition state_inv (R : Z) (s : vstate) (tr : N -> list vout) : Prop :=
  (forall x, In x (ids (vs_jobs s)) -> (x < vs_next s)%N) /\ forall i, job_inv i R (vs_next s) (job_find i (vs_jobs s)) (tr i).
Lemma about_other : forall i k p jobs n r, k <> i -> filter (about k) (snd (conclude i p jobs n r)) = [].
Proof.
  intros i k p jobs n r N. unfold conclude. assert (E : (i =? k)%N = false) by lia. destruct (snd r) as [v|chain seen rq sent|er]; cbn [snd filter about]; rewrite ?E; try reflexivity.
  induction sent as [|x sent IH]; cbn [map filter about]; [reflexivity|]. rewrite E. exact IH.
Qed.
Lemma conclude_inv : forall R i p jobs n k0 k1 r t, 0 <= R -> k1 <= R -> (i < n)%N -> job_find i jobs = None -> cnt (is_verdict i) t = 0 -> 0 <= k0 -> within i R k0 k1 0 t ->
  (cnt (is_interest i true) t <= Z.of_N maxDepth * (R + 1) /\ cnt (is_interest i false) t <= Z.of_N maxDepth * (R + 1) /\ cnt (is_wait i) t <= Z.of_N maxDepth * R) -> pend_ok R k0 k1 (snd r) ->
  job_inv i R n (job_find i (vs_jobs (fst (conclude i p jobs n r)))) (t ++ filter (about i) (snd (conclude i p jobs n r))).
Proof using.
  intros R i p jobs n k0 k1 r t R0 Hk Hi Fn V K0 W (M1 & M2 & M3) P. unfold conclude.
  assert (Fin : forall v rest, filter (about i) rest = [] -> job_inv i R n (job_find i jobs) (t ++ filter (about i) (OVerdict i v :: rest))).
  { intros v rest E. cbn [filter about]. rewrite N.eqb_refl, E, Fn. unfold job_inv. destruct (N.ltb_spec i n); [|lia]. rewrite !cnt_app. destruct (cnt_verdict i v) as (C1 & C2 & C3 & C4). rewrite C1, C2, C3, C4. splits; try lia. exists v. apply (last_snoc t []). }
  destruct (snd r) as [v|chain seen rq sent|er]; cbn [fst snd vs_jobs]; [apply Fin; reflexivity| |apply Fin; reflexivity].
  cbn [pend_ok] in P. destruct P as (L & D & So). destruct (filter_sent i (cq_int rq) sent So) as (E & C1 & C2 & C3 & C4 & a & d & Ea). rewrite E. rewrite jfind_cons. cbn [vj_id]. rewrite N.eqb_refl. unfold job_inv. cbn [vj_id vj_chain vj_req vj_phase].
  pose proof (within_later _ _ _ _ _ _ _ R0 L Hk W) as [W1 W2 W3]. splits; auto.
  - rewrite cnt_app, C1. lia.
  - apply L.
  - constructor; rewrite cnt_app; lia.
  - exists d. rewrite Ea. apply last_snoc.
Qed.

Lemma conclude_next : forall i p jobs n r, vs_next (fst (conclude i p jobs n r)) = n.
Proof. intros. unfold conclude. destruct (snd r); reflexivity. Qed.
Lemma conclude_other : forall i k p jobs n r, k <> i -> job_find k (vs_jobs (fst (conclude i p jobs n r))) = job_find k jobs.
Proof. intros i k p jobs n r N. unfold conclude. destruct (snd r); cbn [fst vs_jobs]; try reflexivity. rewrite jfind_cons. cbn [vj_id]. destruct (N.eqb_spec i k); [congruence|reflexivity]. Qed.
Lemma conclude_ids : forall i p jobs n r x, In x (ids (vs_jobs (fst (conclude i p jobs n r)))) -> x = i \/ In x (ids jobs).
Proof. intros i p jobs n r x I. unfold conclude in I. destruct (snd r); cbn [fst vs_jobs] in I; auto. unfold ids in I. cbn [map vj_id] in I. destruct I as [I|I]; auto. Qed.
Lemma job_step : forall R s tr i j k0 k1 r, 0 <= R -> state_inv R s tr -> job_find i (vs_jobs s) = Some j -> k1 <= R -> 0 <= k0 -> within i R k0 k1 0 (tr i) -> pend_ok R k0 k1 (snd r) ->
  let c := conclude i (vj_pkt j) (job_del i (vs_jobs s)) (vs_next s) r in state_inv R (fst c) (fun k => tr k ++ filter (about k) (snd c)).
Proof using.
  intros R s tr i j k0 k1 r R0 [Lt Inv] F Hk K0 W P c. assert (Ii : In i (ids (vs_jobs s))) by (apply jfind_in in F as [A B]; apply in_map_iff; eauto). pose proof (Inv i) as Ji. rewrite F in Ji. unfold job_inv in Ji. destruct Ji as (_ & V & D & Kr & Ph). split.
  - intros x I. unfold c in *. rewrite conclude_next. apply conclude_ids in I. destruct I as [->|I]; [auto|]. apply Lt. eapply ids_del; eauto.
  - intro k. unfold c. rewrite conclude_next. destruct (N.eq_dec k i) as [->|N].
    + apply (conclude_inv R i _ _ _ k0 k1 r (tr i)); auto; [rewrite jfind_del, N.eqb_refl; reflexivity|]. destruct (vj_phase j).
      * destruct Ph as [Ph _]. apply (within_max i R (zlen (vj_chain j)) (cq_left (vj_req j)) 1); auto; [unfold zlen in *; lia|lia].
      * destruct Ph as (_ & Ph & _). apply (within_max i R (zlen (vj_chain j)) (cq_left (vj_req j)) 0); auto; [unfold zlen in *; lia|lia].
    + rewrite conclude_other by exact N. rewrite about_other by exact N. rewrite jfind_del. destruct (N.eqb_spec i k); [congruence|]. rewrite app_nil_r. apply Inv.
Qed.
Lemma nothing : forall R s tr, state_inv R s tr -> state_inv R s (fun k => tr k ++ filter (about k) []).
Proof. intros R s tr [A B]. split; [exact A|]. intro k. cbn [filter]. rewrite app_nil_r. apply B. Qed.
Lemma silent : forall R s s' tr o, vs_jobs s' = vs_jobs s -> vs_next s' = vs_next s -> (forall k, filter (about k) o = []) -> state_inv R s tr -> state_inv R s' (fun k => tr k ++ filter (about k) o).
Proof. intros R s s' tr o Ej En Ho [A B]. split; [rewrite Ej, En; exact A|]. intro k. rewrite Ho, app_nil_r, Ej, En. apply B. Qed.
Lemma step_state : forall R e s tr s' o, 0 <= R -> retries R e -> state_inv R s tr -> step e s = Ok (s', o) -> state_inv R s' (fun k => tr k ++ filter (about k) o).
Proof using.
  intros R e s tr s' o R0 Re Inv F. assert (Fe : forall en, looks e = Some en -> few R en) by (intros en L it ch rq Po; eapply Re; eauto).
  destruct e as [en p|en i pk oc|i|en i|en i|i|ao|en c|]; unfold M_Validator.step in F.
  - (* start *)
    destruct Inv as [Lt Inv]. specialize (Fe en eq_refl). set (i := vs_next s) in *. assert (Fn : job_find i (vs_jobs s) = None) by (apply jfind_none; intro X; specialize (Lt _ X); unfold i in Lt; lia).
    assert (T0 : tr i = []) by (pose proof (Inv i) as Ji; rewrite Fn in Ji; unfold job_inv in Ji; rewrite N.ltb_irrefl in Ji; exact Ji).
    assert (Fin : forall r, pend_ok R 0 R (snd r) -> conclude i p (vs_jobs s) (i + 1) r = (s', o) -> state_inv R s' (fun k => tr k ++ filter (about k) o)).
    { intros r P C. pose proof (f_equal fst C) as C1. pose proof (f_equal snd C) as C2. cbn [fst snd] in C1, C2. subst s' o. split.
      - intros x I. rewrite conclude_next. apply conclude_ids in I. destruct I as [->|I]; [lia|]. specialize (Lt _ I). unfold i. lia.
      - intro k. rewrite conclude_next. destruct (N.eq_dec k i) as [->|N].
        + apply (conclude_inv R i _ _ _ 0 R r (tr i)); auto; try lia; rewrite ?T0; try reflexivity; unfold cnt, zlen; cbn [filter length]; [constructor; unfold cnt, zlen, pos; cbn [filter length]; lia|]. splits; nia.
        + rewrite conclude_other by exact N. rewrite about_other by exact N. rewrite app_nil_r. specialize (Inv k). unfold job_inv in *. destruct (job_find k (vs_jobs s)); [exact Inv|]. unfold i in *. destruct (N.ltb_spec k (vs_next s)), (N.ltb_spec k (vs_next s + 1)); try lia; exact Inv. }
    unfold start in F. fold i in F. destruct (_ && _); [apply okinj in F; refine (Fin _ _ F); exact I|]. destruct (en_pol en (VPkt p) []) as [er| |rq|er|] eqn:Po; try (apply okinj in F; refine (Fin _ _ F); exact I).
    destruct (request _ _ _ _ _ _ _ _ _ _) as [r|] eqn:Rq; cbn [bind] in F; [|discriminate]. apply okinj in F. refine (Fin _ _ F). pose proof (Fe _ _ _ Po) as Lr. apply (request_pend R en p (fuel0 maxDepth) Fe) in Rq; [|exact Lr]. eapply pend_weak; [| |exact Rq]; [exact Lr|]. unfold later, zlen. cbn [length]. lia.
  - (* data *)
    specialize (Fe en eq_refl). destruct (job_find i (vs_jobs s)) as [j|] eqn:Fj; [|apply okinj in F; injection F as <- <-; now apply nothing]. destruct (vj_phase j) eqn:Ph; [|apply okinj in F; injection F as <- <-; now apply nothing].
    destruct (q_matches _ _); [|apply okinj in F; injection F as <- <-; now apply nothing].
    pose proof (proj2 Inv i) as Ji. rewrite Fj in Ji. unfold job_inv in Ji. rewrite Ph in Ji. destruct Ji as (_ & V & D & Kr & W & _). set (n := zlen (vj_chain j)) in *. assert (N0 : 0 <= n) by (unfold n, zlen; lia).
    assert (Fin : forall r, pend_ok R (n + 1) R (snd r) -> conclude i (vj_pkt j) (job_del i (vs_jobs s)) (vs_next s) r = (s', o) -> state_inv R s' (fun k => tr k ++ filter (about k) o)).
    { intros r P C. pose proof (f_equal fst C) as C1. pose proof (f_equal snd C) as C2. cbn [fst snd] in C1, C2. subst s' o. apply (job_step R s tr i j (n + 1) R r R0 Inv Fj); auto; try lia. destruct W as [W1 W2 W3]. unfold pos in *. constructor; unfold pos; nia. }
    destruct oc as [pd|].
    + destruct (gotCert _ _ _ _ _ _) as [r|] eqn:G; cbn [bind] in F; [|discriminate]. apply okinj in F. refine (Fin _ _ F). eapply gotCert_pend; [exact Fe|apply request_pend; exact Fe|exact G].
    + apply okinj in F. refine (Fin _ _ F). exact I.
  - (* nack *)
    destruct (job_find i (vs_jobs s)) as [j|] eqn:Fj; [|apply okinj in F; injection F as <- <-; now apply nothing]. destruct (vj_phase j) eqn:Ph; [|apply okinj in F; injection F as <- <-; now apply nothing].
    pose proof (proj2 Inv i) as Ji. rewrite Fj in Ji. unfold job_inv in Ji. rewrite Ph in Ji. destruct Ji as (_ & V & D & Kr & W & _). set (n := zlen (vj_chain j)) in *. assert (N0 : 0 <= n) by (unfold n, zlen; lia).
    destruct (Z.leb_spec 0 (cq_left (vj_req j) - 1)) as [L|L].
    + apply okinj in F. injection F as <- <-. destruct Inv as [Lt Inv]. assert (Ii : In i (ids (vs_jobs s))) by (apply jfind_in in Fj as [A B]; apply in_map_iff; eauto). split; cbn [vs_next vs_jobs].
      * intros x I. unfold ids in I. cbn [map vj_id] in I. destruct I as [<-|I]; [auto|]. apply Lt. eapply ids_del; eauto.
      * intro k. rewrite jfind_cons. cbn [vj_id filter about]. destruct (N.eqb_spec i k) as [<-|N]; [|rewrite jfind_del; destruct (N.eqb_spec i k); [congruence|]; rewrite app_nil_r; apply Inv].
        unfold job_inv. cbn [vj_id vj_chain vj_req vj_phase cq_left]. fold n. rewrite !cnt_app. destruct (cnt_wait i (cq_wait (vj_req j))) as (C1 & C2 & C3 & C4). rewrite C1. splits; auto; try lia; [|exists (cq_wait (vj_req j)); apply (last_snoc (tr i) [])].
        destruct W as [W1 W2 W3]. unfold pos in *. constructor; rewrite cnt_app; unfold pos; lia.
    + apply okinj in F. pose proof (f_equal fst F) as C1. pose proof (f_equal snd F) as C2. cbn [fst snd] in C1, C2. subst s' o. apply (job_step R s tr i j (n + 1) R _ R0 Inv Fj); auto; try lia; [|exact I]. destruct W as [W1 W2 W3]. unfold pos in *. constructor; unfold pos; nia.
  - (* timeout *)
    specialize (Fe en eq_refl). destruct (job_find i (vs_jobs s)) as [j|] eqn:Fj; [|apply okinj in F; injection F as <- <-; now apply nothing]. destruct (vj_phase j) eqn:Ph; [|apply okinj in F; injection F as <- <-; now apply nothing].
    pose proof (proj2 Inv i) as Ji. rewrite Fj in Ji. unfold job_inv in Ji. rewrite Ph in Ji. destruct Ji as (_ & V & D & Kr & W & _). set (n := zlen (vj_chain j)) in *. assert (N0 : 0 <= n) by (unfold n, zlen; lia).
    destruct (Z.leb_spec 0 (cq_left (vj_req j) - 1)) as [L|L].
    + destruct (fetch _ _ _ _ _ _ _ _ _) as [r|] eqn:Ft; cbn [bind] in F; [|discriminate]. apply okinj in F. pose proof (f_equal fst F) as C1. pose proof (f_equal snd F) as C2. cbn [fst snd] in C1, C2. subst s' o.
      apply (job_step R s tr i j n (cq_left (vj_req j) - 1) r R0 Inv Fj); auto; try lia.
      * destruct W as [W1 W2 W3]. unfold pos in *. constructor; unfold pos; lia.
      * apply (fetch_pend R) in Ft; auto; [apply request_pend; exact Fe|cbn [cq_left]; lia].
    + apply okinj in F. pose proof (f_equal fst F) as C1. pose proof (f_equal snd F) as C2. cbn [fst snd] in C1, C2. subst s' o. apply (job_step R s tr i j (n + 1) R _ R0 Inv Fj); auto; try lia; [|exact I]. destruct W as [W1 W2 W3]. unfold pos in *. constructor; unfold pos; nia.
  - (* wake *)
    specialize (Fe en eq_refl). destruct (job_find i (vs_jobs s)) as [j|] eqn:Fj; [|apply okinj in F; injection F as <- <-; now apply nothing]. destruct (vj_phase j) eqn:Ph; [apply okinj in F; injection F as <- <-; now apply nothing|].
    pose proof (proj2 Inv i) as Ji. rewrite Fj in Ji. unfold job_inv in Ji. rewrite Ph in Ji. destruct Ji as (_ & V & D & Kr & K0 & W & _). set (n := zlen (vj_chain j)) in *. assert (N0 : 0 <= n) by (unfold n, zlen; lia).
    destruct (fetch _ _ _ _ _ _ _ _ _) as [r|] eqn:Ft; cbn [bind] in F; [|discriminate]. apply okinj in F. pose proof (f_equal fst F) as C1. pose proof (f_equal snd F) as C2. cbn [fst snd] in C1, C2. subst s' o.
    apply (job_step R s tr i j n (cq_left (vj_req j)) r R0 Inv Fj); auto. apply (fetch_pend R) in Ft; auto. apply request_pend; exact Fe.
  - (* drop *)
    destruct (job_find i (vs_jobs s)) as [j|] eqn:Fj; [|apply okinj in F; injection F as <- <-; now apply nothing]. apply okinj in F. injection F as <- <-.
    pose proof (proj2 Inv i) as Ji. rewrite Fj in Ji. unfold job_inv in Ji. destruct Ji as (_ & V & D & Kr & W). set (n := zlen (vj_chain j)) in *. assert (N0 : 0 <= n) by (unfold n, zlen; lia).
    refine (job_step R s tr i j (n + 1) R (vs_store s, RDone (VFail VE_IMPLEMENTATION)) R0 Inv Fj _ _ _ I); try lia. destruct (vj_phase j); [destruct W as [[W1 W2 W3] _]|destruct W as (_ & [W1 W2 W3] & _)]; unfold pos in *; constructor; unfold pos; nia.
  - destruct (ta_step _ _) as [r|]; cbn [bind] in F; [|discriminate]. apply okinj in F. injection F as <- <-. apply silent with (s := s); auto. intro k. destruct (snd r) as [[er|]|]; reflexivity.
  - destruct (cc_insert _ _ _) as [v|er]; [|destruct (catchable er); [|discriminate]]; apply okinj in F; injection F as <- <-; apply silent with (s := s); auto.
  - apply okinj in F. injection F as <- <-. apply silent with (s := s); auto.
Qed.
Definition tr_of (outs : list (list vout)) (i : N) : list vout := filter (about i) (concat outs).
Lemma tr_snoc : forall outs o i, tr_of (outs ++ [o]) i = tr_of outs i ++ filter (about i) o.
Proof. intros. unfold tr_of. rewrite concat_app, filter_app. cbn [concat]. now rewrite app_nil_r. Qed.
Lemma run_state : forall R l s outs, 0 <= R -> Forall (retries R) l -> run l vs_new = Ok (s, outs) -> state_inv R s (tr_of outs).
Proof using.
  intros R l s outs R0. revert s outs. induction l as [|e l IH] using rev_ind; intros s outs F H.
  - apply okinj in H. injection H as <- <-. split; [intros x []|]. intro i. unfold job_inv, vs_new. cbn [vs_jobs vs_next job_find List.find]. destruct i; reflexivity.
  - apply Forall_app in F as [F1 F2]. inversion F2 as [|? ? Fe _]; subst. apply run_snoc in H as (s1 & outs1 & o & H & St & ->). pose proof (step_state R e s1 (tr_of outs1) s o R0 Fe (IH _ _ F1 H) St) as [A B]. split; [exact A|]. intro i. rewrite tr_snoc. apply B.
Qed.
Lemma next_run : forall l s outs, run l vs_new = Ok (s, outs) -> vs_next s = started l.
Proof using.
  induction l as [|e l IH] using rev_ind; intros s outs H.
  - apply okinj in H. injection H as <- <-. reflexivity.
  - apply run_snoc in H as (s1 & outs1 & o & H & St & ->). unfold started. rewrite filter_app, nlen_app. fold (started l). rewrite <- (IH _ _ H). cbn [filter].
    assert (Cn : forall i p jobs n r, conclude i p jobs n r = (s, o) -> vs_next s = n) by (intros i p jobs n r C; pose proof (f_equal fst C) as C1; cbn [fst] in C1; rewrite <- C1; apply conclude_next).
    assert (Same : forall a b, (a, b) = (s, o) -> vs_next a = vs_next s) by congruence.
    destruct e as [en p|en i pk oc|i|en i|en i|i|ao|en c|]; cbn [is_start]; unfold M_Validator.step in St.
    + unfold start in St. change (nlen [VStart en p]) with 1%N. destruct (_ && _); [apply okinj in St; eapply Cn; eauto|]. destruct (en_pol _ _ _); try (apply okinj in St; eapply Cn; eauto). destruct (request _ _ _ _ _ _ _ _ _ _); cbn [bind] in St; [|discriminate]. apply okinj in St. eapply Cn; eauto.
    + destruct (job_find _ _) as [j|]; [|apply okinj in St; injection St as <- <-; cbn; lia]. destruct (vj_phase j); [|apply okinj in St; injection St as <- <-; cbn; lia]. destruct (q_matches _ _); [|apply okinj in St; injection St as <- <-; cbn; lia]. destruct oc; [destruct (gotCert _ _ _ _ _ _); cbn [bind] in St; [|discriminate]|]; apply okinj in St; apply Cn in St; rewrite St; cbn; lia.
    + destruct (job_find _ _) as [j|]; [|apply okinj in St; injection St as <- <-; cbn; lia]. destruct (vj_phase j); [|apply okinj in St; injection St as <- <-; cbn; lia]. destruct (0 <=? _); apply okinj in St; [injection St as <- <-; cbn; lia|]. apply Cn in St; rewrite St; cbn; lia.
    + destruct (job_find _ _) as [j|]; [|apply okinj in St; injection St as <- <-; cbn; lia]. destruct (vj_phase j); [|apply okinj in St; injection St as <- <-; cbn; lia]. destruct (0 <=? _); [destruct (fetch _ _ _ _ _ _ _ _ _); cbn [bind] in St; [|discriminate]|]; apply okinj in St; apply Cn in St; rewrite St; cbn; lia.
    + destruct (job_find _ _) as [j|]; [|apply okinj in St; injection St as <- <-; cbn; lia]. destruct (vj_phase j); [apply okinj in St; injection St as <- <-; cbn; lia|]. destruct (fetch _ _ _ _ _ _ _ _ _); cbn [bind] in St; [|discriminate]; apply okinj in St; apply Cn in St; rewrite St; cbn; lia.
    + destruct (job_find _ _) as [j|]; apply okinj in St; injection St as <- <-; cbn; lia.
    + destruct (ta_step _ _); cbn [bind] in St; [|discriminate]. apply okinj in St. injection St as <- <-. cbn. lia.
    + destruct (cc_insert _ _ _) as [v|er]; [|destruct (catchable er); [|discriminate]]; apply okinj in St; injection St as <- <-; cbn; lia.
    + apply okinj in St. injection St as <- <-. cbn. lia.
Qed.
(* ---- an awaited event always has an effect ---- *)
Lemma conclude_about : forall R n k i p jobs m r, pend_ok R n k (snd r) -> exists x, In x (snd (conclude i p jobs m r)) /\ about i x = true.
Proof using.
  intros R n k i p jobs m r P. unfold conclude. destruct (snd r) as [v|chain seen rq sent|er]; cbn [snd]; try (eexists; split; [now left|cbn [about]; lia]).
  cbn [pend_ok] in P. destruct P as (_ & _ & S). destruct S as [ -> |[ -> | -> ]]; cbn [map]; eexists; (split; [now left|cbn [about]; lia]).
Qed.
Lemma answered : forall R i l s outs e s' o, 0 <= R -> Forall (retries R) (l ++ [e]) -> run l vs_new = Ok (s, outs) -> awaiting i outs e -> step e s = Ok (s', o) -> exists x, In x o /\ about i x = true.
Proof using.
  intros R i l s outs e s' o R0 F H (pre & x & post & Ec & Ax & Ap & M) St. apply Forall_app in F as [F1 F2]. inversion F2 as [|? ? Re _]; subst. pose proof (proj2 (run_state R l s outs R0 F1 H) i) as Ji.
  assert (Fe : forall en, looks e = Some en -> few R en) by (intros en L it ch rq Po; eapply Re; eauto).
  assert (La : last_of (tr_of outs i) = Some x).
  { unfold tr_of. rewrite Ec, filter_app. cbn [filter]. rewrite Ax. assert (E0 : filter (about i) post = []).
    { clear - Ap. induction post as [|y post IH]; [reflexivity|]. cbn [filter]. rewrite (Ap y (or_introl eq_refl)). apply IH. intros z I. apply Ap. now right. }
    rewrite E0. apply (last_snoc (filter (about i) pre) []). }
  unfold job_inv in Ji. destruct (job_find i (vs_jobs s)) as [j|] eqn:Fj.
  2:{ destruct (i <? vs_next s)%N; [|rewrite Ji in La; discriminate]. destruct Ji as (_ & _ & _ & _ & v & Lv). rewrite La in Lv. injection Lv as ->. destruct e; contradiction. }
  destruct Ji as (_ & _ & D & Kr & Ph). unfold M_Validator.step in St.
  assert (Cn : forall R n k r, pend_ok R n k (snd r) -> conclude i (vj_pkt j) (job_del i (vs_jobs s)) (vs_next s) r = (s', o) -> exists x, In x o /\ about i x = true).
  { intros R' n k r P C. pose proof (f_equal snd C) as C2. cbn [snd] in C2. rewrite <- C2. eapply conclude_about; eauto. }
  destruct (vj_phase j) eqn:Pj.
  - destruct Ph as (_ & d & Lj). rewrite La in Lj. injection Lj as ->. destruct e as [en p|en k pk oc|k|en k|en k|k|ao|en c|]; try contradiction.
    + destruct M as [-> Qm]. rewrite Fj, Pj in St. rewrite Qm in St. specialize (Fe en eq_refl). destruct oc as [pd|].
      * destruct (gotCert _ _ _ _ _ _) as [r|] eqn:G; cbn [bind] in St; [|discriminate]. apply okinj in St. refine (Cn R _ R _ _ St). eapply gotCert_pend; [exact Fe|apply request_pend; exact Fe|exact G].
      * apply okinj in St. refine (Cn 0 0 0 _ _ St). exact I.
    + subst k. rewrite Fj, Pj in St. destruct (0 <=? _); apply okinj in St; [|refine (Cn 0 0 0 _ _ St); exact I]. injection St as <- <-. eexists. split; [now left|]. cbn [about]. lia.
    + subst k. rewrite Fj, Pj in St. specialize (Fe en eq_refl). destruct (Z.leb_spec 0 (cq_left (vj_req j) - 1)); [|apply okinj in St; refine (Cn 0 0 0 _ _ St); exact I].
      destruct (fetch _ _ _ _ _ _ _ _ _) as [r|] eqn:Ft; cbn [bind] in St; [|discriminate]. apply okinj in St. apply (fetch_pend R) in Ft; auto; [eapply Cn; eauto|apply request_pend; exact Fe|cbn [cq_left]; lia].
  - destruct Ph as (K0 & _ & ms & Lj). rewrite La in Lj. injection Lj as ->. destruct e as [en p|en k pk oc|k|en k|en k|k|ao|en c|]; try contradiction. subst k. rewrite Fj, Pj in St. specialize (Fe en eq_refl).
    destruct (fetch _ _ _ _ _ _ _ _ _) as [r|] eqn:Ft; cbn [bind] in St; [|discriminate]. apply okinj in St. apply (fetch_pend R) in Ft; auto; [eapply Cn; eauto|apply request_pend; exact Fe].
Qed.

(* ---- nothing undefined ---- *)
Definition haspd (c : cert) : Prop := ct_period c <> None.
Record ready (p : Z) (s : store) : Prop := { rd_anch : small p (st_anch s); rd_ver : cc_max (st_ver s) = hour; rd_unv : cc_max (st_unv s) = fiveMin }.
Definition env_ok (p : Z) (en : venv) : Prop := 0 <= en_steady en /\ en_steady en + p < 2 ^ 63 /\ - 2 ^ 63 <= en_sys en /\ en_sys en + hour < 2 ^ 63.
Lemma insert_ok : forall now x c, - 2 ^ 63 <= now -> now + hour < 2 ^ 63 -> cc_max c = hour \/ cc_max c = fiveMin -> haspd x -> exists c', cc_insert now x c = Ok c' /\ cc_max c' = cc_max c.
Proof using.
  intros now x c A B M Hp. unfold cc_insert, ct_notAfter. unfold haspd in Hp. destruct (ct_period x) as [[nb na]|]; [|congruence]. cbn [option_map snd]. destruct (na <? now); [eauto|]. unfold tp_add.
  assert (H0 : 0 <= cc_max c <= hour) by (destruct M as [M|M]; rewrite M; unfold hour, fiveMin; lia). replace ((- 2 ^ 63 <=? now + cc_max c) && (now + cc_max c <? 2 ^ 63)) with true by lia. cbn [bind]. destruct (existsb _ _); eauto.
Qed.
Definition ends_ok (p : Z) (x : res (store * vres)) : Prop := exists r, x = Ok r /\ ready p (fst r) /\ match snd r with RPend chain _ _ _ => Forall haspd chain | _ => True end.
Lemma validateCert_ok : forall p rec en s chain seen c, ready p s -> Forall haspd chain ->
  (forall s' seen' rq, ready p s' -> haspd c -> ends_ok p (rec s' (c :: chain) seen' rq)) -> ends_ok p (validateCert rec en s chain seen c).
Proof using.
  intros p rec en s chain seen c Rd Hc Rc. unfold validateCert. destruct (ct_period c) as [[nb na]|] eqn:P; [|eexists; splits; [reflexivity|exact Rd|exact I]]. destruct (_ && _); [|eexists; splits; [reflexivity|exact Rd|exact I]].
  destruct (en_pol en (VCert c) chain); try (eexists; splits; [reflexivity|exact Rd|exact I]). apply Rc; [exact Rd|]. unfold haspd. congruence.
Qed.
Lemma gotCert_ok : forall p rec en s chain seen c, env_ok p en -> ready p s -> Forall haspd chain ->
  (forall s' seen' rq, ready p s' -> haspd c -> ends_ok p (rec s' (c :: chain) seen' rq)) -> ends_ok p (gotCert rec en s chain seen c).
Proof using.
  intros p rec en s chain seen c (_ & _ & E1 & E2) Rd Hc Rc. unfold gotCert. destruct (ct_period c) as [pd|] eqn:P.
  - destruct Rd as [Ra Rv Ru]. destruct (insert_ok (en_sys en) c (st_unv s)) as (u & -> & Mu); auto; [unfold haspd; congruence|]. apply validateCert_ok; auto. constructor; cbn [st_anch st_ver st_unv]; auto. congruence.
  - unfold cc_insert, ct_notAfter. rewrite P. cbn [option_map catchable]. eexists; splits; [reflexivity|exact Rd|exact I].
Qed.
Lemma fetch_ok : forall p pk rec again en s chain seen rq, env_ok p en -> ready p s -> Forall haspd chain ->
  (forall c s' seen' rq', ready p s' -> haspd c -> ends_ok p (rec s' (c :: chain) seen' rq')) -> ends_ok p (fetch kind rec again en s pk chain seen rq).
Proof using.
  intros p pk rec again en s chain seen rq E Rd Hc Rc. unfold fetch. set (s1 := mkSt _ _ _). assert (R1 : ready p s1) by (destruct Rd; constructor; cbn [s1 st_anch st_ver st_unv]; auto). destruct (snd _) as [c|].
  - destruct again; [apply gotCert_ok; auto|apply validateCert_ok; auto].
  - eexists. splits; [reflexivity|exact R1|]. cbn [snd]. unfold doFetch. destruct kind as [|only|]; auto. destruct (vp_face pk =? 0)%N; destruct only; auto.
Qed.
Lemma cacheAll_ok : forall now l c, - 2 ^ 63 <= now -> now + hour < 2 ^ 63 -> cc_max c = hour -> Forall haspd l -> exists c', cacheAll now l c = Ok c' /\ cc_max c' = hour.
Proof using.
  intros now. induction l as [|x l IH]; intros c A B M F; cbn [cacheAll]; [eauto|]. inversion F; subst. destruct (insert_ok now x c) as (c1 & -> & M1); auto. cbn [bind]. apply IH; auto. congruence.
Qed.
Lemma verifyChain_sub : forall chain t c, In c (fst (verifyChain verify t chain)) -> In c chain.
Proof using.
  induction chain as [|x chain IH]; intros t c I; cbn [verifyChain] in I; [exact I|]. destruct (verify _ _); cbn [fst] in I; [|destruct I]. destruct I as [<-|I]; [now left|right; eauto].
Qed.
Lemma findTrusted_ok : forall p en s q, env_ok p en -> ready p s -> exists r, findTrusted en s q = Ok r /\ ready p (fst r).
Proof using.
  intros p en s q (E1 & E2 & E3 & E4) [Ra Rv Ru]. unfold findTrusted, ta_findInterest, ta_refresh. destruct (refresh_ok p (en_ord en ++ map tg_id (ta_groups (st_anch s))) (en_steady en) (en_disk en) (st_anch s) E1 E2 Ra) as (a & -> & Sm). cbn [bind fst snd].
  match goal with |- context [match ?x with Some _ => _ | None => _ end] => destruct x end; eexists; (split; [reflexivity|]); constructor; cbn [fst st_anch st_ver st_unv]; auto.
Qed.
Lemma request_ok : forall p en pk fuel s chain seen rq, env_ok p en -> ready p s -> Forall haspd chain -> (N.to_nat maxDepth < fuel + length chain)%nat -> (fuel = O -> (length chain <= N.to_nat maxDepth)%nat) -> ends_ok p (request verify maxDepth kind fuel en pk s chain seen rq).
Proof using.
  intros p en pk. induction fuel as [|fuel IH]; intros s chain seen rq E Rd Hc Fu F0; cbn [request]; [specialize (F0 eq_refl); lia|].
  destruct (N.leb_spec maxDepth (nlen chain)) as [D|D]; [eexists; splits; [reflexivity|exact Rd|exact I]|]. destruct (names_eqb _ _); [eexists; splits; [reflexivity|exact Rd|exact I]|]. destruct (existsb _ _); [eexists; splits; [reflexivity|exact Rd|exact I]|].
  destruct (findTrusted_ok p en s (cq_int rq) E Rd) as (r & -> & Rr). cbn [bind]. destruct (snd r) as [t|].
  - unfold settle. destruct E as (_ & _ & E3 & E4). destruct (cacheAll_ok (en_sys en) (fst (verifyChain verify t chain)) (st_ver (fst r))) as (v & -> & Mv); auto; [apply (rd_ver _ _ Rr)| |].
    + apply Forall_forall. intros c I. apply verifyChain_sub in I. rewrite Forall_forall in Hc. auto.
    + cbn [bind]. eexists. splits; [reflexivity| |exact I]. destruct Rr. constructor; cbn [fst st_anch st_ver st_unv]; auto.
  - apply fetch_ok; auto. intros c s' seen' rq' R' Hp. unfold nlen in D. apply IH; auto; cbn [length]; lia.
Qed.
Definition sready (p : Z) (s : vstate) : Prop := ready p (vs_store s) /\ forall j, In j (vs_jobs s) -> Forall haspd (vj_chain j).
Lemma del_in : forall i (j : vjob) l, In j (job_del i l) -> In j l.
Proof. intros i j l I. unfold job_del in I. apply filter_In in I. tauto. Qed.
Lemma conclude_ready : forall p i pk jobs n r, ready p (fst r) -> (forall j, In j jobs -> Forall haspd (vj_chain j)) -> match snd r with RPend chain _ _ _ => Forall haspd chain | _ => True end -> sready p (fst (conclude i pk jobs n r)).
Proof using.
  intros p i pk jobs n r A B C. unfold conclude. destruct (snd r); split; cbn [fst vs_store vs_jobs]; auto. intros j [<-|I]; auto.
Qed.
Lemma fin_ok : forall p i pk jobs n (x : res (store * vres)), ends_ok p x -> (forall j, In j jobs -> Forall haspd (vj_chain j)) -> exists s' o, (let! r := x in Ok (conclude i pk jobs n r)) = Ok (s', o) /\ sready p s'.
Proof using.
  intros p i pk jobs n x (r & -> & A & B) J. cbn [bind]. exists (fst (conclude i pk jobs n r)), (snd (conclude i pk jobs n r)). split; [now destruct (conclude i pk jobs n r)|]. apply conclude_ready; auto.
Qed.
Lemma ends_val : forall p s v, ready p s -> ends_ok p (Ok (s, RDone v)).
Proof. intros. eexists. splits; [reflexivity|exact H|exact I]. Qed.
Lemma ends_thr : forall p s v, ready p s -> ends_ok p (Ok (s, RThrow v)).
Proof. intros. eexists. splits; [reflexivity|exact H|exact I]. Qed.
Lemma step_sready : forall p e s, in_range p e -> sready p s -> exists s' o, step e s = Ok (s', o) /\ sready p s'.
Proof using.
  intros p e s Ir [Rd J]. assert (Ne : exists s' o, Ok (s, @nil vout) = Ok (s', o) /\ sready p s') by (exists s, []; split; [reflexivity|split; assumption]).
  assert (Jd : forall i j, In j (job_del i (vs_jobs s)) -> Forall haspd (vj_chain j)) by (intros i j I; apply J; eapply del_in; eauto).
  assert (Jf : forall i j, job_find i (vs_jobs s) = Some j -> Forall haspd (vj_chain j)) by (intros i j F; apply J; apply jfind_in in F as [A B]; auto).
  destruct e as [en pk|en i pk oc|i|en i|en i|i|ao|en c|]; unfold M_Validator.step.
  - specialize (Ir en eq_refl). fold (env_ok p en) in Ir. unfold start. destruct (_ && _); [eapply (fin_ok p _ _ _ _ (Ok _)); [apply ends_val|]; auto|]. destruct (en_pol en (VPkt pk) []).
    + eapply (fin_ok p _ _ _ _ (Ok _)); [apply ends_val|]; eauto.
    + eapply (fin_ok p _ _ _ _ (Ok _)); [apply ends_val|]; eauto.
    + apply fin_ok; [|eauto]. apply request_ok; auto; unfold fuel0; cbn [length]; lia.
    + eapply (fin_ok p _ _ _ _ (Ok _)); [apply ends_thr|]; eauto.
    + eapply (fin_ok p _ _ _ _ (Ok _)); [apply ends_val|]; eauto.
  - specialize (Ir en eq_refl). fold (env_ok p en) in Ir. destruct (job_find i (vs_jobs s)) as [j|] eqn:Fj; [|exact Ne]. destruct (vj_phase j); [|exact Ne]. destruct (q_matches _ _); [|exact Ne]. destruct oc as [pd|].
    + apply fin_ok; [|eauto]. apply gotCert_ok; auto; [eauto|]. intros s' seen' rq R' Hp. apply request_ok; auto; [constructor; eauto| |]; unfold fuel0; cbn [length]; lia.
    + eapply (fin_ok p _ _ _ _ (Ok _)); [apply ends_val|]; eauto.
  - destruct (job_find i (vs_jobs s)) as [j|] eqn:Fj; [|exact Ne]. destruct (vj_phase j); [|exact Ne]. destruct (0 <=? _).
    + do 2 eexists. split; [reflexivity|]. split; cbn [vs_store vs_jobs]; [exact Rd|]. intros k [<-|I]; [cbn [vj_chain]|]; eauto.
    + eapply (fin_ok p _ _ _ _ (Ok _)); [apply ends_val|]; eauto.
  - specialize (Ir en eq_refl). fold (env_ok p en) in Ir. destruct (job_find i (vs_jobs s)) as [j|] eqn:Fj; [|exact Ne]. destruct (vj_phase j); [|exact Ne]. destruct (0 <=? _).
    + apply fin_ok; [|eauto]. apply fetch_ok; auto; [eauto|]. intros c s' seen' rq R' Hp. apply request_ok; auto; [constructor; eauto| |]; unfold fuel0; cbn [length]; lia.
    + eapply (fin_ok p _ _ _ _ (Ok _)); [apply ends_val|]; eauto.
  - specialize (Ir en eq_refl). fold (env_ok p en) in Ir. destruct (job_find i (vs_jobs s)) as [j|] eqn:Fj; [|exact Ne]. destruct (vj_phase j); [exact Ne|].
    apply fin_ok; [|eauto]. apply fetch_ok; auto; [eauto|]. intros c s' seen' rq R' Hp. apply request_ok; auto; [constructor; eauto| |]; unfold fuel0; cbn [length]; lia.
  - destruct (job_find i (vs_jobs s)) as [j|] eqn:Fj; [|exact Ne]. do 2 eexists. split; [reflexivity|]. split; cbn [vs_store vs_jobs]; auto. intros k I; eauto.
  - destruct (step_ok p ao (st_anch (vs_store s)) Ir) as (a & x & -> & Sm); [apply (rd_anch _ _ Rd)|]. cbn [bind]. do 2 eexists. split; [reflexivity|]. split; cbn [vs_store vs_jobs fst]; auto. destruct Rd. constructor; auto.
  - cbn [in_range] in Ir. destruct Ir as [I1 I2]. destruct (ct_period c) as [pd|] eqn:P.
    + destruct (insert_ok (en_sys en) c (st_ver (vs_store s))) as (v & -> & Mv); auto; [left; apply (rd_ver _ _ Rd)|unfold haspd; congruence|]. do 2 eexists. split; [reflexivity|]. split; cbn [vs_store vs_jobs]; auto. destruct Rd. constructor; cbn [st_anch st_ver st_unv]; auto. congruence.
    + unfold cc_insert, ct_notAfter. rewrite P. cbn [option_map catchable]. do 2 eexists. split; [reflexivity|]. split; auto.
  - do 2 eexists. split; [reflexivity|]. split; cbn [vs_store vs_jobs]; auto. destruct Rd. constructor; auto.
Qed.
Lemma run_defined : forall p l s, Forall (in_range p) l -> sready p s -> exists s' outs, run l s = Ok (s', outs) /\ sready p s' /\ length outs = length l.
Proof using.
  intros p. induction l as [|e l IH]; intros s F R; cbn [M_Validator.run]; [eauto|]. inversion F as [|? ? F1 F2]; subst. destruct (step_sready p e s F1 R) as (s1 & o & -> & R1). cbn [bind fst snd].
  destruct (IH s1 F2 R1) as (s2 & outs & -> & R2 & Ln). cbn [bind fst snd]. do 2 eexists. splits; eauto. cbn [length]. congruence.
Qed.
Lemma new_ready : forall p, sready p vs_new.
Proof. intro p. split; [|intros j []]. constructor; try reflexivity. intros g y []. Qed.

(* ---- trust anchors across calls ---- *)
Section Keep.
Variable P : anchors -> Prop.
Variable en : venv.
Hypothesis Pr : forall ord a a', P a -> ta_refresh (en_steady en) (en_disk en) ord a = Ok a' -> P a'.
Definition keeps (x : res (store * vres)) : Prop := forall r, x = Ok r -> P (st_anch (fst r)).
Lemma findTrusted_keeps : forall s q r, P (st_anch s) -> findTrusted en s q = Ok r -> P (st_anch (fst r)).
Proof using Pr.
  intros s q r H F. unfold findTrusted, ta_findInterest in F. destruct (ta_refresh _ _ _ _) as [a|] eqn:R; cbn [bind fst snd] in F; [|discriminate]. assert (Pa : P a) by eauto.
  destruct (ascan _ _); apply okinj in F; subst r; exact Pa.
Qed.
Lemma validateCert_keeps : forall rec s chain seen c, (forall s' ch se rq, P (st_anch s') -> keeps (rec s' ch se rq)) -> P (st_anch s) -> keeps (validateCert rec en s chain seen c).
Proof using.
  intros rec s chain seen c Rc H r F. unfold validateCert in F. destruct (ct_period c) as [[nb na]|]; [|apply okinj in F; subst r; exact H]. destruct (_ && _); [|apply okinj in F; subst r; exact H].
  destruct (en_pol en (VCert c) chain); try (apply okinj in F; subst r; exact H). eapply Rc; eauto.
Qed.
Lemma gotCert_keeps : forall rec s chain seen c, (forall s' ch se rq, P (st_anch s') -> keeps (rec s' ch se rq)) -> P (st_anch s) -> keeps (gotCert rec en s chain seen c).
Proof using.
  intros rec s chain seen c Rc H r F. unfold gotCert in F. destruct (cc_insert _ _ _) as [u|er].
  - eapply validateCert_keeps; [exact Rc| |exact F]. exact H.
  - destruct (catchable er); [|discriminate]. apply okinj in F. subst r. exact H.
Qed.
Lemma fetch_keeps : forall rec again s p chain seen rq, (forall s' ch se rq, P (st_anch s') -> keeps (rec s' ch se rq)) -> P (st_anch s) -> keeps (fetch kind rec again en s p chain seen rq).
Proof using.
  intros rec again s p chain seen rq Rc H r F. unfold fetch in F. destruct (snd (cc_findInterest _ _ _)) as [c|].
  - destruct again; [eapply gotCert_keeps; [exact Rc| |exact F]|eapply validateCert_keeps; [exact Rc| |exact F]]; exact H.
  - apply okinj in F. subst r. exact H.
Qed.
Lemma request_keeps : forall p fuel s chain seen rq, P (st_anch s) -> keeps (request verify maxDepth kind fuel en p s chain seen rq).
Proof using Pr.
  intros p. induction fuel as [|fuel IH]; intros s chain seen rq H r F; cbn [request] in F; [discriminate|]. destruct (_ <=? _)%N; [apply okinj in F; subst r; exact H|]. destruct (names_eqb _ _); [apply okinj in F; subst r; exact H|]. destruct (existsb _ _); [apply okinj in F; subst r; exact H|].
  destruct (findTrusted en s (cq_int rq)) as [x|] eqn:Ft; cbn [bind] in F; [|discriminate]. apply findTrusted_keeps in Ft; [|exact H]. destruct (snd x) as [t|].
  - unfold settle in F. destruct (cacheAll _ _ _); cbn [bind] in F; [|discriminate]. apply okinj in F. subst r. exact Ft.
  - eapply fetch_keeps; [|exact Ft|exact F]. intros. apply IH. assumption.
Qed.
End Keep.
Lemma conclude_store : forall i p jobs n r, vs_store (fst (conclude i p jobs n r)) = fst r.
Proof. intros. unfold conclude. destruct (snd r); reflexivity. Qed.
Lemma step_keeps : forall (c : cert) e s s' o, steady e -> ~ disturbs (ct_name c) e -> kept c (st_anch (vs_store s)) -> step e s = Ok (s', o) -> kept c (st_anch (vs_store s')).
Proof using.
  intros c e s s' o Sd Nd K F.
  assert (Pr : forall en, looks e = Some en -> forall ord a a', kept c a -> ta_refresh (en_steady en) (en_disk en) ord a = Ok a' -> kept c a').
  { intros en L ord a a' Ka R. unfold ta_refresh in R. eapply refresh_kept; [|exact Ka|exact R]. intros path Od. apply Nd. exists (TAFindI (en_steady en) (en_disk en) (en_ord en) any_q). split; [|cbn [touches reads]; do 3 eexists; split; [split; reflexivity|exact Od]].
    unfold anchor_history. cbn [flat_map]. rewrite app_nil_r. destruct e; cbn [looks] in *; try discriminate; injection L as ->; now left. }
  assert (Cn : forall i p jobs n r, conclude i p jobs n r = (s', o) -> kept c (st_anch (fst r)) -> kept c (st_anch (vs_store s'))) by (intros i p jobs n r C Q; pose proof (f_equal fst C) as C1; cbn [fst] in C1; rewrite <- C1, conclude_store; exact Q).
  destruct e as [en p|en i pk oc|i|en i|en i|i|ao|en x|]; unfold M_Validator.step in F.
  - specialize (Pr en eq_refl). unfold start in F. destruct (_ && _); [apply okinj in F; eapply Cn; eauto|]. destruct (en_pol _ _ _); try (apply okinj in F; eapply Cn; [exact F|exact K]).
    destruct (request _ _ _ _ _ _ _ _ _ _) as [r|] eqn:R; cbn [bind] in F; [|discriminate]. apply okinj in F. eapply Cn; [exact F|]. eapply request_keeps; [exact Pr|exact K|exact R].
  - specialize (Pr en eq_refl). destruct (job_find _ _) as [j|]; [|apply okinj in F; injection F as <- <-; exact K]. destruct (vj_phase j); [|apply okinj in F; injection F as <- <-; exact K]. destruct (q_matches _ _); [|apply okinj in F; injection F as <- <-; exact K].
    destruct oc; [|apply okinj in F; eapply Cn; [exact F|exact K]]. destruct (gotCert _ _ _ _ _ _) as [r|] eqn:R; cbn [bind] in F; [|discriminate]. apply okinj in F. eapply Cn; [exact F|]. eapply (gotCert_keeps (kept c)); [|exact K|exact R]. intros. now apply request_keeps.
  - destruct (job_find _ _) as [j|]; [|apply okinj in F; injection F as <- <-; exact K]. destruct (vj_phase j); [|apply okinj in F; injection F as <- <-; exact K]. destruct (0 <=? _); apply okinj in F; [injection F as <- <-; exact K|]. eapply Cn; [exact F|exact K].
  - specialize (Pr en eq_refl). destruct (job_find _ _) as [j|]; [|apply okinj in F; injection F as <- <-; exact K]. destruct (vj_phase j); [|apply okinj in F; injection F as <- <-; exact K]. destruct (0 <=? _); [|apply okinj in F; eapply Cn; [exact F|exact K]].
    destruct (fetch _ _ _ _ _ _ _ _ _) as [r|] eqn:R; cbn [bind] in F; [|discriminate]. apply okinj in F. eapply Cn; [exact F|]. eapply (fetch_keeps (kept c)); [|exact K|exact R]. intros. now apply request_keeps.
  - specialize (Pr en eq_refl). destruct (job_find _ _) as [j|]; [|apply okinj in F; injection F as <- <-; exact K]. destruct (vj_phase j); [apply okinj in F; injection F as <- <-; exact K|].
    destruct (fetch _ _ _ _ _ _ _ _ _) as [r|] eqn:R; cbn [bind] in F; [|discriminate]. apply okinj in F. eapply Cn; [exact F|]. eapply (fetch_keeps (kept c)); [|exact K|exact R]. intros. now apply request_keeps.
  - destruct (job_find _ _) as [j|]; apply okinj in F; injection F as <- <-; exact K.
  - destruct (ta_step ao _) as [[a x]|] eqn:St; cbn [bind] in F; [|discriminate]. apply okinj in F. pose proof (f_equal fst F) as C1. cbn [fst] in C1. rewrite <- C1. cbn [vs_store st_anch]. eapply step_kept; [exact Sd| |exact K|exact St]. intro T. apply Nd. exists ao. split; [now left|exact T].
  - destruct (cc_insert _ _ _) as [v|er]; [|destruct (catchable er); [|discriminate]]; apply okinj in F; injection F as <- <-; exact K.
  - apply okinj in F. injection F as <- <-. exact K.
Qed.
Lemma run_keeps : forall c l s s' outs, Forall steady l -> (forall e, In e l -> ~ disturbs (ct_name c) e) -> kept c (st_anch (vs_store s)) -> run l s = Ok (s', outs) -> kept c (st_anch (vs_store s')).
Proof using.
  intros c. induction l as [|e l IH]; intros s s' outs Fs Nd K F; cbn [M_Validator.run] in F; [apply okinj in F; injection F as <- <-; exact K|]. inversion Fs as [|? ? F1 F2]; subst.
  destruct (step e s) as [[s1 o]|] eqn:St; cbn [bind fst snd] in F; [|discriminate]. destruct (run l s1) as [[s2 xs]|] eqn:R; cbn [bind fst snd] in F; [|discriminate]. apply okinj in F. injection F as <- <-.
  eapply IH; [exact F2|intros; apply Nd; now right| |exact R]. eapply step_keeps; [exact F1|apply Nd; now left|exact K|exact St].
Qed.
Lemma run_app : forall l1 l2 s s' outs, run (l1 ++ l2) s = Ok (s', outs) -> exists s1 o1 o2, run l1 s = Ok (s1, o1) /\ run l2 s1 = Ok (s', o2) /\ outs = o1 ++ o2.
Proof using.
  induction l1 as [|e l1 IH]; intros l2 s s' outs F; cbn [app M_Validator.run] in *; [exists s, [], outs; auto|]. destruct (step e s) as [[s1 o]|]; cbn [bind fst snd] in *; [|discriminate]. destruct (run (l1 ++ l2) s1) as [[s2 xs]|] eqn:R; cbn [bind fst snd] in F; [|discriminate].
  apply okinj in F. injection F as <- <-. destruct (IH _ _ _ _ R) as (s3 & o1 & o2 & E1 & E2 & ->). rewrite E1. cbn [bind fst snd]. do 3 eexists. splits; eauto.
Qed.
(* the anchor kept is the one found *)
Lemma kept_found : forall c en s q r, kept c (st_anch s) -> (forall path, ~ on_disk (en_disk en) path (ct_name c)) -> q_name q = ct_name c -> q_accepts q (ct_pk c) -> findTrusted en s q = Ok r -> snd r = Some c.
Proof using.
  intros c en s q r K Nd Qn Qa F. unfold findTrusted, ta_findInterest in F. destruct (ta_refresh _ _ _ _) as [a|] eqn:R; cbn [bind fst snd] in F; [|discriminate]. unfold ta_refresh in R. pose proof (refresh_kept _ c _ _ _ a Nd K R) as K1.
  pose proof (ascan_spec q _ (kp_sorted _ _ K1)) as Sc. rewrite Qn in *. assert (Pc : is_prefix (ct_name c) (ct_name c)) by (exists []; now rewrite app_nil_r).
  destruct (ascan q _) as [x|]; [|contradiction (Sc c); split; [exact Pc|split; [exact Qa|apply K1]]]. apply okinj in F. subst r. cbn [snd]. f_equal. destruct Sc as [(Px & A & I) Least].
  destruct (Least c) as [<-|L]; [split; [exact Pc|split; [exact Qa|apply K1]]|reflexivity|]. apply prefix_ge in Px. destruct Px as [Px|Px]; [|contradiction (names_lt_irr _ (names_lt_trans _ _ _ Px L))]. rewrite Px in L. contradiction (names_lt_irr _ L).
Qed.
End W.

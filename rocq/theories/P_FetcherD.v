(* C47: the bookkeeping of SegmentFetcher in front of a well-behaved network. *)
From Coq Require Import ZArith SpecFloat Lia ZifyBool ZifyNat ZifyN Sorting.Sorted Sorting.Permutation.
From Verif Require Import Base BaseLemmas M_Tlv M_Name S_Name P_Name P_NameUri M_Packet S_Packet M_Rtt M_Fetcher S_Fetcher P_Fetcher S_FetcherNet.
Open Scope N_scope.

(* ---- maps with ascending keys ---- *)
Definition ksorted {A} (m : list (N * A)) : Prop := StronglySorted (fun a b => fst a < fst b) m.
Lemma ks_mget_none : forall A (m : list (N * A)) k, Forall (fun b => k < fst b) m -> mget k m = None.
Proof. induction m as [|[k' v] m IH]; intros k F; cbn; auto. inversion F; subst. cbn in *. destruct (k =? k') eqn:E; [lia|auto]. Qed.
Lemma minsert_fst : forall A k (v : A) m x, In x (minsert k v m) -> fst x = k \/ In x m.
Proof.
  induction m as [|[k' v'] m IH]; cbn; intros x H; [destruct H as [<-|[]]; auto|].
  destruct (k =? k'); [destruct H as [<-|H]; auto|]. destruct (k <? k'); [destruct H as [<-|H]; auto|]. destruct H as [<-|H]; auto. apply IH in H as [H|H]; auto.
Qed.
Lemma ksorted_insert : forall A k (v : A) m, ksorted m -> ksorted (minsert k v m).
Proof.
  induction m as [|[k' v'] m IH]; cbn; intro S1; [repeat constructor|]. inversion S1 as [|a b S2 F]; subst.
  destruct (k =? k') eqn:E; [constructor; auto; apply N.eqb_eq in E; subst; exact F|].
  destruct (k <? k') eqn:L.
  - constructor; auto. constructor; [cbn; lia|]. eapply Forall_impl; [|exact F]. cbn. intros. lia.
  - constructor; [now apply IH|]. apply Forall_forall. intros x I. apply minsert_fst in I as [I|I]; [cbn; lia|]. rewrite Forall_forall in F. auto.
Qed.
Lemma ksorted_remove : forall A k (m : list (N * A)), ksorted m -> ksorted (mremove k m).
Proof.
  unfold mremove. induction m as [|[k' v'] m IH]; cbn; intro S1; auto. inversion S1 as [|a b S2 F]; subst. destruct (negb (k' =? k)); auto.
  constructor; [now apply IH|]. apply Forall_forall. intros x I. apply filter_In in I as [I _]. rewrite Forall_forall in F. auto.
Qed.
Definition tflag (p : pseg) : nat := match ps_timer p with Some _ => 1 | None => 0 end.
Fixpoint cnt (m : list (N * pseg)) : nat := match m with [] => 0 | (_, p) :: m' => tflag p + cnt m' end.
Lemma cnt_new : forall k p m, mget k m = None -> cnt (minsert k p m) = (tflag p + cnt m)%nat.
Proof.
  induction m as [|[k' q] m IH]; intro H; cbn in *; auto. destruct (k =? k'); [discriminate|]. destruct (k <? k'); cbn; auto. rewrite IH; auto. lia.
Qed.
Lemma cnt_old : forall k p q m, ksorted m -> mget k m = Some q -> (cnt (minsert k p m) + tflag q = cnt m + tflag p)%nat.
Proof.
  induction m as [|[k' r] m IH]; intros S1 H; cbn in *; [discriminate|]. inversion S1 as [|a b S2 F]; subst. destruct (k =? k') eqn:E.
  - injection H as ->. cbn. lia.
  - destruct (k <? k') eqn:L.
    + rewrite ks_mget_none in H; [discriminate|]. eapply Forall_impl; [|exact F]. cbn. intros. lia.
    + cbn. specialize (IH S2 H). lia.
Qed.
Lemma cnt_remove : forall k q m, ksorted m -> mget k m = Some q -> (cnt (mremove k m) + tflag q = cnt m)%nat.
Proof.
  unfold mremove. induction m as [|[k' r] m IH]; intros S1 H; cbn in *; [discriminate|]. inversion S1 as [|a b S2 F]; subst. destruct (k =? k') eqn:E.
  - injection H as ->. apply N.eqb_eq in E. subst k'. rewrite N.eqb_refl. cbn.
    replace (filter (fun p => negb (fst p =? k)) m) with m; [lia|]. symmetry. clear - F. induction m as [|[k' v] m IH]; cbn; auto.
    inversion F; subst. cbn in *. replace (k' =? k) with false by lia. cbn. f_equal. auto.
  - replace (k' =? k) with false by lia. cbn. specialize (IH S2 H). lia.
Qed.
Lemma cnt_pos : forall k p id m, mget k m = Some p -> ps_timer p = Some id -> (1 <= cnt m)%nat.
Proof.
  induction m as [|[k' q] m IH]; cbn; intros H T; [discriminate|]. destruct (k =? k'); [injection H as ->; unfold tflag; rewrite T; lia|]. specialize (IH H T). lia.
Qed.
Lemma mget_clear : forall id m k, mget k (map (clear_timer id) m) = option_map (fun p => snd (clear_timer id (k, p))) (mget k m).
Proof.
  induction m as [|[k' p] m IH]; intro k; cbn; auto. unfold clear_timer in *. cbn [fst snd] in *.
  destruct (ps_timer p) as [t|] eqn:T.
  - destruct (Nat.eqb t id) eqn:E; cbn [fst snd]; destruct (k =? k') eqn:K; auto; cbn; rewrite T, E; reflexivity.
  - cbn [fst snd]. destruct (k =? k') eqn:K; auto. cbn. now rewrite T.
Qed.
Lemma clear_none : forall id m, (forall k p, mget k m = Some p -> ps_timer p <> Some id) -> ksorted m -> map (clear_timer id) m = m.
Proof.
  induction m as [|[k p] m IH]; intros H S1; auto. inversion S1 as [|a b S2 F]; subst. cbn [map]. rewrite IH; auto.
  - f_equal. unfold clear_timer. cbn. specialize (H k p). cbn in H. rewrite N.eqb_refl in H. specialize (H eq_refl).
    destruct (ps_timer p) as [t|]; auto. destruct (Nat.eqb t id) eqn:E; auto. apply Nat.eqb_eq in E. congruence.
  - intros k' q G. apply (H k' q). cbn. destruct (k' =? k) eqn:E; auto. rewrite ks_mget_none in G; [discriminate|].
    eapply Forall_impl; [|exact F]. cbn. intros. lia.
Qed.
Lemma clear_one : forall id m k p, ksorted m -> mget k m = Some p -> ps_timer p = Some id ->
  (forall k' p', mget k' m = Some p' -> ps_timer p' = Some id -> k' = k) ->
  map (clear_timer id) m = minsert k (mkPs (ps_uid p) (ps_state p) (ps_req p) None) m.
Proof.
  induction m as [|[k' q] m IH]; intros k p S1 G T U; [discriminate|]. cbn in G. inversion S1 as [|a b S2 F]; subst. cbn [map minsert].
  destruct (k =? k') eqn:E.
  - injection G as ->. apply N.eqb_eq in E. subst k'. unfold clear_timer at 1. cbn [fst snd]. rewrite T, Nat.eqb_refl. f_equal.
    apply clear_none; auto. intros k' p' G T'. specialize (U k' p'). cbn in U. destruct (k' =? k) eqn:K.
    + apply N.eqb_eq in K. subst. rewrite ks_mget_none in G; [discriminate|exact F].
    + apply U in T'; auto. lia.
  - destruct (k <? k') eqn:L. { rewrite ks_mget_none in G; [discriminate|]. eapply Forall_impl; [|exact F]. cbn. intros. lia. }
    rewrite (IH k p); auto.
    + f_equal. unfold clear_timer. cbn [fst snd]. destruct (ps_timer q) as [t|] eqn:TQ; auto. destruct (Nat.eqb t id) eqn:X; auto.
      apply Nat.eqb_eq in X. subst t. specialize (U k' q). cbn in U. rewrite N.eqb_refl in U. specialize (U eq_refl TQ). lia.
    + intros k2 p2 G2 T2. apply (U k2 p2); auto. cbn. destruct (k2 =? k') eqn:X; auto.
      rewrite ks_mget_none in G2; [discriminate|]. eapply Forall_impl; [|exact F]. cbn. intros. lia.
Qed.
Lemma has_timer_get : forall id s, ksorted (fs_pend s) -> has_timer id s = true -> exists k p, mget k (fs_pend s) = Some p /\ ps_timer p = Some id.
Proof.
  unfold has_timer. intros id s. generalize (fs_pend s). clear s. induction l as [|[k p] m IH]; cbn; intros S1 H; [discriminate|].
  inversion S1 as [|a b S2 F]; subst. apply Bool.orb_true_iff in H as [H|H].
  - exists k, p. rewrite N.eqb_refl. split; auto. destruct (ps_timer p) as [t|]; [|discriminate]. apply Nat.eqb_eq in H. congruence.
  - destruct (IH S2 H) as (k' & p' & G & T). exists k', p'. split; auto. destruct (k' =? k) eqn:E; auto.
    rewrite ks_mget_none in G; [discriminate|]. eapply Forall_impl; [|exact F]. cbn. intros. lia.
Qed.
Lemma has_timer_none : forall id s, has_timer id s = false -> forall k p, mget k (fs_pend s) = Some p -> ps_timer p <> Some id.
Proof.
  unfold has_timer. intros id s. generalize (fs_pend s). clear s. induction l as [|[k p] m IH]; cbn; intros H k' p' G; [discriminate|].
  apply Bool.orb_false_iff in H as [H1 H2]. destruct (k' =? k); [|eauto]. injection G as <-. destruct (ps_timer p) as [t|]; [|discriminate].
  apply Nat.eqb_neq in H1. congruence.
Qed.

Lemma nodup_split : forall A (a b : list A), NoDup (a ++ b) -> NoDup a /\ NoDup b /\ forall x, In x a -> ~ In x b.
Proof.
  induction a as [|x a IH]; cbn; intros b H; [splits; auto; constructor|]. inversion H as [|y l NI ND]; subst. destruct (IH b ND) as (A1 & A2 & A3). splits; auto.
  - constructor; auto. intro I. apply NI, in_or_app. auto.
  - intros y [<-|I]; auto. intro I. apply NI, in_or_app. auto.
Qed.
Lemma nodup_join : forall A (a b : list A), NoDup a -> NoDup b -> (forall x, In x a -> ~ In x b) -> NoDup (a ++ b).
Proof.
  induction a as [|x a IH]; cbn; intros b H Hb D; auto. inversion H as [|y l NI ND]; subst. constructor; [|apply IH; auto].
  intro I. apply in_app_or in I as [I|I]; auto. eapply D; eauto.
Qed.

(* ---- the invariant ---- *)
Section D.
Variables (conv dconv : convention) (o : fopts) (f : N).
Hypothesis CD : can_decode dconv conv = true.
Hypothesis Hf : f < 2 ^ 62.

Definition vgood (s : fetcher) (d : data) (k : N) : Prop :=
  finalno dconv d = Some f /\ exists j, segno dconv d = Some j /\ j <= f /\ (fs_recv s <> [] -> j = k) /\ (fs_recv s = [] -> fo_inOrder o = true -> j = 0).
Record core (used : list nat) (s : fetcher) : Prop := mkCore {
  k_sorted : ksorted (fs_pend s);
  k_infl : fs_infl s = Z.of_nat (cnt (fs_pend s));
  k_used : forall id, In id used -> (id < length (fs_reqs s))%nat;
  k_tm : forall k p id, mget k (fs_pend s) = Some p -> ps_timer p = Some id ->
    (id < length (fs_reqs s))%nat /\ ~ In id used /\ ps_state p <> InRetxQueue;
  k_un : forall k k' p p' id, mget k (fs_pend s) = Some p -> mget k' (fs_pend s) = Some p' -> ps_timer p = Some id -> ps_timer p' = Some id -> k' = k;
  k_out : forall id, (id < length (fs_reqs s))%nat -> ~ In id used -> exists k p, mget k (fs_pend s) = Some p /\ ps_timer p = Some id;
  k_uid : forall k p, mget k (fs_pend s) = Some p -> (ps_uid p < length (fs_reqs s))%nat;
  k_uidu : forall k k' p p', mget k (fs_pend s) = Some p -> mget k' (fs_pend s) = Some p' -> ps_uid p = ps_uid p' -> k' = k;
  k_val : forall v d u m, nth_error (fs_vals s) v = Some (Some (d, u, m)) ->
    exists k p, mget k (fs_pend s) = Some p /\ ps_uid p = u /\ ps_timer p = None /\ ps_state p <> InRetxQueue /\ vgood s d k;
  k_valu : forall v v' d u m d' m', nth_error (fs_vals s) v = Some (Some (d, u, m)) -> nth_error (fs_vals s) v' = Some (Some (d', u, m')) -> v' = v;
  k_cw : fo_constCwnd o = true -> fs_cwnd s = fo_initCwnd o }.
Record ph0 (s : fetcher) : Prop := mkPh0 {
  z_recv : fs_recv s = [];
  z_pend : exists p, fs_pend s = [(0, p)] /\ ps_state p <> InRetxQueue;
  z_nseg : fs_nseg s = 0%Z; z_nrecv : fs_nrecv s = 0%Z; z_next : fs_next s = 0; z_buf : fs_buf s = []; z_retx : fs_retx s = [];
  z_names : forall id n, nth_error (fs_reqs s) id = Some n -> name_segno dconv n = None }.
Record ph1 (s : fetcher) : Prop := mkPh1 {
  o_recv : fs_recv s <> [];
  o_nseg : fs_nseg s = Z.of_N (f + 1);
  o_nd : NoDup (fs_recv s);
  o_nrecv : fs_nrecv s = Z.of_nat (length (fs_recv s));
  o_bs : ksorted (fs_buf s);
  o_next : fs_next s <= f + 1;
  o_rspec : forall i, In i (fs_recv s) -> i <= f /\ (i < fs_next s \/ (fo_inOrder o = false /\ mget i (fs_buf s) <> None));
  o_pspec : forall k p, mget k (fs_pend s) = Some p -> k < fs_next s /\ ~ In k (fs_recv s);
  o_bspec : forall i, mget i (fs_buf s) <> None -> In i (fs_recv s);
  o_names : forall k p id n, mget k (fs_pend s) = Some p -> ps_timer p = Some id -> nth_error (fs_reqs s) id = Some n -> name_segno dconv n = Some k;
  o_retx : NoDup (fs_retx s) /\ forall x, In x (fs_retx s) -> exists p, mget x (fs_pend s) = Some p /\ ps_state p = InRetxQueue }.
(* every segment wanted is requested, waiting to be requested, or under validation; l: the requests about to be sent *)
Definition live (s : fetcher) (u : nat) : Prop := exists v d m, nth_error (fs_vals s) v = Some (Some (d, u, m)).
Definition kinds (s : fetcher) : Prop := forall k p, mget k (fs_pend s) = Some p -> ps_timer p <> None \/ ps_state p = InRetxQueue \/ live s (ps_uid p).
Record fullp (l : list (N * bool)) (s : fetcher) : Prop := mkFull {
  q_kinds : kinds s;
  q_retx : forall k p, mget k (fs_pend s) = Some p -> ps_state p = InRetxQueue -> In k (fs_retx s) \/ In (k, true) l;
  q_cover : forall i, i < fs_next s -> In i (fs_recv s) \/ mget i (fs_pend s) <> None \/ In (i, false) l }.
Definition roomy : Prop := fo_inOrder o = false \/ f < fo_flowWin o < 2 ^ 63.
Definition busy (s : fetcher) : Prop := (0 < fs_infl s)%Z \/ exists u, live s u.
Definition inv (used : list nat) (s : fetcher) : Prop :=
  core used s /\ kinds s /\ (ph0 s \/ ph1 s /\ fullp [] s) /\ N.of_nat (length (fs_recv s)) <= f /\ (roomy -> busy s).

(* the parts of the state that the invariant is about *)
Lemma core_ext : forall used s s', core used s ->
  fs_pend s' = fs_pend s -> fs_infl s' = fs_infl s -> fs_reqs s' = fs_reqs s -> fs_vals s' = fs_vals s -> fs_recv s' = fs_recv s ->
  (fo_constCwnd o = true -> fs_cwnd s' = fs_cwnd s) -> core used s'.
Proof.
  intros used s s' K P I R V RC CW. destruct K. constructor; rewrite ?P, ?I, ?R, ?V in *; auto.
  - intros v d u m H. destruct (k_val0 v d u m H) as (k & p & A1 & A2 & A3 & A4 & A5). exists k, p. splits; auto. unfold vgood in *. now rewrite RC.
  - intro C. rewrite CW; auto.
Qed.

(* ---- sending ---- *)
Lemma send_names : forall c n, nm_last (nm_append c n) = Some c.
Proof. intros. unfold nm_last, nm_append. cbn. now rewrite rev_app_distr. Qed.
Lemma name_segno_append : forall seg c n, seg < 2 ^ 64 -> fromKind conv KSegment seg = Ok c -> name_segno dconv (nm_append c n) = Some seg.
Proof.
  intros seg c n L E. destruct (numeric_round_trip conv dconv KSegment seg c L CD E) as [A B].
  pose proof (send_names c n) as X. unfold nm_last in X. unfold name_segno. destruct (rev _); [discriminate|]. injection X as ->. now rewrite A, B.
Qed.
Definition entry_of (seg : N) (retx : bool) (s : fetcher) : Prop :=
  if retx then exists p, mget seg (fs_pend s) = Some p /\ ps_state p = InRetxQueue else mget seg (fs_pend s) = None.
Lemma nth_snoc : forall A (l : list A) x i y, nth_error (l ++ [x]) i = Some y -> nth_error l i = Some y \/ (i = length l /\ y = x).
Proof.
  intros A l x i y H. destruct (Nat.lt_ge_cases i (length l)) as [L|L]; [rewrite nth_error_app1 in H; auto|].
  rewrite nth_error_app2 in H by auto. right. destruct (i - length l)%nat as [|j] eqn:E; [|destruct j; discriminate]. cbn in H. injection H as <-. split; auto. lia.
Qed.
Lemma send_core : forall used seg n cbp mbf retx s, core used s -> entry_of seg retx s ->
  exists s' p, fs_send seg n cbp mbf retx s = Ok s' /\ core used s' /\
    fs_pend s' = minsert seg p (fs_pend s) /\ fs_reqs s' = fs_reqs s ++ [n] /\ ps_timer p = Some (length (fs_reqs s)) /\ ps_state p <> InRetxQueue /\
    fs_recv s' = fs_recv s /\ fs_nseg s' = fs_nseg s /\ fs_nrecv s' = fs_nrecv s /\ fs_next s' = fs_next s /\ fs_buf s' = fs_buf s /\ fs_retx s' = fs_retx s /\
    fs_vals s' = fs_vals s /\ fs_this s' = fs_this s /\ fs_cwnd s' = fs_cwnd s /\ fs_ssth s' = fs_ssth s /\ fs_ver s' = fs_ver s /\ fs_infl s' = (fs_infl s + 1)%Z.
Proof.
  intros used seg n cbp mbf retx s K E.
  assert (CORE : forall s' p, fs_pend s' = minsert seg p (fs_pend s) -> fs_reqs s' = fs_reqs s ++ [n] -> fs_infl s' = (fs_infl s + 1)%Z -> ps_timer p = Some (length (fs_reqs s)) ->
     ps_state p <> InRetxQueue -> fs_vals s' = fs_vals s -> fs_recv s' = fs_recv s -> fs_cwnd s' = fs_cwnd s ->
     (mget seg (fs_pend s) = None /\ ps_uid p = length (fs_reqs s) \/ exists q, mget seg (fs_pend s) = Some q /\ ps_state q = InRetxQueue /\ ps_uid p = ps_uid q) -> core used s').
  { intros s' p P R I T S1 V RC CW OLD.
    assert (OT : forall q, mget seg (fs_pend s) = Some q -> ps_timer q = None).
    { intros q G. destruct (ps_timer q) as [t|] eqn:TQ; auto. destruct OLD as [[G2 _]|(q2 & G2 & IR & _)]; [congruence|].
      assert (q2 = q) by congruence. subst. destruct (k_tm _ _ K _ _ _ G TQ) as (_ & _ & X). congruence. }
    assert (LR : length (fs_reqs s') = S (length (fs_reqs s))) by (rewrite R, app_length; cbn; lia).
    constructor.
    - rewrite P. apply ksorted_insert, K.
    - rewrite P, I, (k_infl _ _ K). destruct (mget seg (fs_pend s)) as [q|] eqn:G.
      + pose proof (cnt_old seg p q (fs_pend s) (k_sorted _ _ K) G) as X. unfold tflag in X. rewrite T, (OT q eq_refl) in X. lia.
      + rewrite (cnt_new seg p _ G). unfold tflag. rewrite T. lia.
    - intros id U. apply (k_used _ _ K) in U. lia.
    - intros k q id G TQ. rewrite P, mget_insert in G. destruct (k =? seg) eqn:KS.
      + injection G as <-. rewrite T in TQ. injection TQ as <-. splits; [lia| |auto]. intro U. apply (k_used _ _ K) in U. lia.
      + destruct (k_tm _ _ K _ _ _ G TQ) as (A & B & C). splits; auto. lia.
    - intros k k' q q' id G G' TQ TQ'. rewrite P, mget_insert in G, G'. destruct (k =? seg) eqn:KS, (k' =? seg) eqn:KS'; try lia.
      + injection G as <-. rewrite T in TQ. injection TQ as <-. destruct (k_tm _ _ K _ _ _ G' TQ') as (A & _). lia.
      + injection G' as <-. rewrite T in TQ'. injection TQ' as <-. destruct (k_tm _ _ K _ _ _ G TQ) as (A & _). lia.
      + eapply (k_un _ _ K); eauto.
    - intros id L U. rewrite P. destruct (Nat.eq_dec id (length (fs_reqs s))) as [->|NE].
      + exists seg, p. rewrite mget_insert, N.eqb_refl. auto.
      + destruct (k_out _ _ K id) as (k & q & G & TQ); [lia|auto|]. exists k, q. rewrite mget_insert. destruct (k =? seg) eqn:KS; auto.
        apply N.eqb_eq in KS. subst k. rewrite (OT q G) in TQ. discriminate.
    - intros k q G. rewrite P, mget_insert in G. destruct (k =? seg).
      + injection G as <-. destruct OLD as [[_ U]|(q2 & G2 & _ & U)]; [lia|]. apply (k_uid _ _ K) in G2. lia.
      + apply (k_uid _ _ K) in G. lia.
    - intros k k' q q' G G' U. rewrite P, mget_insert in G, G'. destruct (k =? seg) eqn:KS, (k' =? seg) eqn:KS'; try lia.
      + injection G as <-. destruct OLD as [[_ U2]|(q2 & G2 & _ & U2)].
        * apply (k_uid _ _ K) in G'. lia.
        * assert (X : k' = seg) by (eapply (k_uidu _ _ K); [exact G2|exact G'|congruence]). lia.
      + injection G' as <-. destruct OLD as [[_ U2]|(q2 & G2 & _ & U2)].
        * apply (k_uid _ _ K) in G. lia.
        * assert (X : k = seg) by (eapply (k_uidu _ _ K); [exact G2|exact G|congruence]). lia.
      + eapply (k_uidu _ _ K); eauto.
    - intros v d u m H. rewrite V in H. destruct (k_val _ _ K _ _ _ _ H) as (k & q & G & A2 & A3 & A4 & A5). exists k, q. rewrite P, mget_insert.
      destruct (k =? seg) eqn:KS.
      + apply N.eqb_eq in KS. subst k. destruct OLD as [[X _]|(q2 & G2 & IR & _)]; [congruence|]. assert (q2 = q) by congruence. subst. contradiction.
      + splits; auto. unfold vgood in *. now rewrite RC.
    - rewrite V. apply K.
    - intro C. rewrite CW. now apply K. }
  unfold fs_send, entry_of in *. destruct retx.
  - destruct E as (q & G & IR). unfold fs_updateRetx. cbn [fs_pend wLog wReqs wInfl]. rewrite G, IR.
    eexists _, (mkPs (ps_uid q) Retransmitted (length (fs_reqs s)) (Some (length (fs_reqs s)))). split; [reflexivity|]. split.
    + eapply CORE; try reflexivity; [discriminate|]. right. exists q. splits; auto.
    + splits; try reflexivity. discriminate.
  - cbn [fs_pend wLog wReqs wInfl]. rewrite E. eexists _, (mkPs (length (fs_reqs s)) FirstInterest (length (fs_reqs s)) (Some (length (fs_reqs s)))). split; [reflexivity|]. split.
    + eapply CORE; try reflexivity; [discriminate|]. left. auto.
    + splits; try reflexivity. discriminate.
Qed.
Lemma sendAll_ok : forall used l s, core used s -> ph1 s -> fullp l s -> NoDup (map fst l) ->
  Forall (fun x => entry_of (fst x) (snd x) s /\ fst x < fs_next s /\ ~ In (fst x) (fs_recv s) /\ ~ In (fst x) (fs_retx s)) l ->
  exists s', fs_sendAll conv l s = Ok s' /\ core used s' /\ ph1 s' /\ fullp [] s' /\ fs_this s' = fs_this s /\ fs_cwnd s' = fs_cwnd s /\ fs_ssth s' = fs_ssth s /\
    fs_recv s' = fs_recv s /\ fs_vals s' = fs_vals s /\ fs_infl s' = (fs_infl s + Z.of_nat (length l))%Z.
Proof.
  intros used l. induction l as [|[seg retx] l IH]; intros s K P FL ND F; cbn [fs_sendAll].
  - exists s. splits; auto. cbn. lia.
  - inversion F as [|a b (E & L & NR & NX) F']; subst. cbn [fst snd map] in *. inversion ND as [|a b NI ND']; subst.
    pose proof (o_next _ P) as LN. assert (L64 : seg < 2 ^ 64) by lia.
    destruct (fromKind_ok conv KSegment seg L64) as [c EC]. rewrite EC. cbn [bind].
    destruct (send_core used seg (nm_append c (fs_ver s)) false false retx s K E) as (s1 & p & ES & K1 & Pe & Re & T & St & R1 & R2 & R3 & R4 & R5 & R6 & R7 & R8 & R9 & R10 & R11 & R12).
    rewrite ES. cbn [bind].
    assert (P1 : ph1 s1).
    { destruct P. constructor; rewrite ?R1, ?R2, ?R3, ?R4, ?R5, ?R6; auto.
      - intros k q G. rewrite Pe, mget_insert in G. destruct (k =? seg) eqn:KS; [|eauto]. apply N.eqb_eq in KS. subst. auto.
      - intros k q id n G TQ NE. rewrite Pe, mget_insert in G. rewrite Re in NE. destruct (k =? seg) eqn:KS.
        + injection G as <-. rewrite T in TQ. injection TQ as <-. rewrite nth_error_app2, Nat.sub_diag in NE by lia. cbn in NE. injection NE as <-.
          apply N.eqb_eq in KS. subst. eapply name_segno_append; eauto.
        + destruct (k_tm _ _ K _ _ _ G TQ) as (LL & _). rewrite nth_error_app1 in NE by auto. eapply o_names0; eauto.
      - destruct o_retx0 as [N1 N2]. split; auto. intros x I. destruct (N2 x I) as (q & G & S1). exists q. rewrite Pe, mget_insert.
        destruct (x =? seg) eqn:KS; auto. apply N.eqb_eq in KS. subst. contradiction. }
    assert (FL1 : fullp l s1).
    { destruct FL. constructor.
      - intros k q G. rewrite Pe, mget_insert in G. unfold live. rewrite R7. destruct (k =? seg); [|exact (q_kinds0 k q G)]. injection G as <-. left. congruence.
      - intros k q G SQ. rewrite Pe, mget_insert in G. rewrite R6. destruct (k =? seg) eqn:KS; [injection G as <-; contradiction|].
        destruct (q_retx0 k q G SQ) as [X|[X|X]]; auto. injection X as X _. lia.
      - intros i Li. rewrite R4 in Li. rewrite R1, Pe, mget_insert. destruct (i =? seg) eqn:KS; [right; left; discriminate|].
        destruct (q_cover0 i Li) as [X|[X|[X|X]]]; auto. injection X as X _. lia. }
    destruct (IH s1 K1 P1 FL1 ND') as (s2 & E2 & K2 & P2 & FL2 & T2 & C2 & H2 & V1 & V2 & V3).
    { rewrite Forall_forall in *. intros [x b] I. destruct (F' _ I) as (E' & A & B & C). cbn [fst snd] in *. rewrite R4, R1, R6. splits; auto.
      assert (x <> seg). { intros ->. apply NI. now apply (in_map fst) in I. }
      unfold entry_of in *. rewrite Pe. rewrite mget_insert. replace (x =? seg) with false by lia. exact E'. }
    exists s2. splits; auto; try congruence. rewrite V3, R12. cbn [length]. lia.
Qed.

(* ---- choosing what to send ---- *)
Definition bcount (next : N) (b : list (N * bytes)) : nat := length (filter (fun kv => next <=? fst kv) b).
Lemma bcount_le : forall n b, (bcount n b <= length b)%nat.
Proof. unfold bcount. induction b as [|[k v] b IH]; cbn; auto. destruct (n <=? k); cbn; lia. Qed.
Lemma bcount_mono : forall n b, (bcount (n + 1) b <= bcount n b)%nat.
Proof. induction b as [|[k v] b IH]; cbn; auto. unfold bcount in *. destruct (n + 1 <=? k) eqn:E1, (n <=? k) eqn:E2; cbn; lia. Qed.
Lemma bcount_hit : forall n b v, mget n b = Some v -> (bcount (n + 1) b < bcount n b)%nat.
Proof.
  induction b as [|[k w] b IH]; intros v H; [discriminate|]. cbn in H. pose proof (bcount_mono n b) as M. unfold bcount in *. cbn. destruct (n =? k) eqn:E.
  - replace (n + 1 <=? k) with false by lia. replace (n <=? k) with true by lia. cbn. lia.
  - specialize (IH v H). destruct (n + 1 <=? k) eqn:E1, (n <=? k) eqn:E2; cbn; lia.
Qed.
Lemma toU64_nseg : toU64 (Z.of_N (f + 1)) = f + 1.
Proof. unfold toU64. rewrite Z.mod_small by lia. lia. Qed.
Lemma pick_ok : forall s, fs_nseg s = Z.of_N (f + 1) -> forall fuel avail retx next acc, next <= f + 1 ->
  (forall x, In x retx -> exists p, mget x (fs_pend s) = Some p /\ ps_state p = InRetxQueue) ->
  (Z.to_nat avail + length retx + bcount next (fs_buf s) <= fuel)%nat ->
  exists pre retx' ys next', fs_pick fuel avail retx next s acc = Ok (acc ++ map (fun x => (x, true)) pre ++ map (fun x => (x, false)) ys, retx', next') /\
    retx = pre ++ retx' /\ NoDup ys /\ next <= next' <= f + 1 /\ (forall y, In y ys -> next <= y < next' /\ mget y (fs_buf s) = None) /\
    (forall i, next <= i < next' -> In i ys \/ mget i (fs_buf s) <> None) /\ ((0 < avail)%Z -> pre = [] -> ys = [] -> retx' = [] /\ next' = f + 1).
Proof.
  intros s NS. induction fuel as [|k IH]; intros avail retx next acc LN HX FU; cbn [fs_pick].
  - destruct (0 <? avail)%Z eqn:A; [lia|]. exists [], retx, [], next. cbn. rewrite app_nil_r. splits; auto; try lia; try (now constructor); try (now intros y []); intros; exfalso; lia.
  - destruct (0 <? avail)%Z eqn:A.
    2:{ exists [], retx, [], next. cbn. rewrite app_nil_r. splits; auto; try lia; try (now constructor); try (now intros y []); intros; exfalso; lia. }
    destruct retx as [|x retx].
    + rewrite NS, toU64_nseg. replace (Z.of_N (f + 1) =? 0)%Z with false by lia. cbn [orb].
      destruct (next <? f + 1) eqn:L.
      2:{ exists [], [], [], next. cbn. rewrite app_nil_r. splits; auto; try lia; try (now constructor); try (now intros y []); try (intros; exfalso; lia); intros; split; auto; lia. }
      replace ((next + 1) mod two64) with (next + 1) by (unfold two64; rewrite N.mod_small; lia).
      destruct (mget next (fs_buf s)) as [v|] eqn:G.
      * pose proof (bcount_hit _ _ _ G). destruct (IH avail [] (next + 1) acc) as (pre & r' & ys & n' & E & E1 & ND & L2 & Y & CV & DN); [lia|auto|cbn [length] in *; lia|].
        symmetry in E1. apply app_eq_nil in E1 as [-> ->]. exists [], [], ys, n'. splits; auto; try lia.
        -- intros y I. apply Y in I as [I1 I2]. split; auto. lia.
        -- intros i Li. destruct (N.eq_dec i next) as [->|NE]; [right; congruence|]. apply CV. lia.
      * pose proof (bcount_mono next (fs_buf s)). destruct (IH (avail - 1)%Z [] (next + 1) (acc ++ [(next, false)])) as (pre & r' & ys & n' & E & E1 & ND & L2 & Y & CV & DN); [lia|auto|cbn [length] in *; lia|].
        symmetry in E1. apply app_eq_nil in E1 as [-> ->]. exists [], [], (next :: ys), n'. rewrite E. cbn. rewrite <- app_assoc. splits; auto; try lia.
        -- constructor; auto. intro I. apply Y in I. lia.
        -- intros y [<-|I]; [split; [lia|auto]|]. apply Y in I as [I1 I2]. split; auto. lia.
        -- intros i Li. destruct (N.eq_dec i next) as [->|NE]; [left; now left|]. destruct (CV i) as [X|X]; [lia|left; now right|auto].
        -- discriminate.
    + destruct (HX x (or_introl eq_refl)) as (p & G & S1). rewrite G, S1.
      destruct (IH (avail - 1)%Z retx next (acc ++ [(x, true)])) as (pre & r' & ys & n' & E & E1 & ND & L2 & Y & CV & DN); [auto|intros; apply HX; now right|cbn [length] in *; lia|].
      exists (x :: pre), r', ys, n'. rewrite E. cbn. rewrite <- app_assoc. splits; auto; try lia; [now rewrite E1|discriminate].
Qed.
Lemma pigeon : forall s, ph1 s -> (f + 1 <= N.of_nat (length (fs_recv s))) -> forall i, i < f + 1 -> In i (fs_recv s).
Proof.
  intros s P L i Li. assert (X : incl (nseqN (f + 1)) (fs_recv s)); [|apply X; now apply in_nseqN].
  apply NoDup_length_incl; [apply P| |]. { unfold nseqN. rewrite map_length, seq_length. lia. }
  intros x I. apply in_nseqN. apply (o_rspec _ P) in I. lia.
Qed.
Lemma missing_one : forall l n, N.of_nat (length l) < n -> exists i, i < n /\ ~ In i l.
Proof.
  intros l n L. destruct (existsb (fun i => negb (existsb (N.eqb i) l)) (nseqN n)) eqn:E.
  - apply existsb_exists in E as (i & I & X). exists i. split; [now apply in_nseqN|]. intro Y. apply existsb_eqb in Y. now rewrite Y in X.
  - exfalso. assert (X : incl (nseqN n) l).
    { intros i I. destruct (existsb (N.eqb i) l) eqn:Y; [now apply existsb_eqb|]. assert (Z1 : existsb (fun i => negb (existsb (N.eqb i) l)) (nseqN n) = true); [|congruence].
      apply existsb_exists. exists i. split; auto. now rewrite Y. }
    apply NoDup_incl_length in X.
    + unfold nseqN in X. rewrite map_length, seq_length in X. lia.
    + unfold nseqN. apply FinFun.Injective_map_NoDup; [|apply seq_NoDup]. intros a b H. lia.
Qed.
Lemma buf_small : forall s, ph1 s -> (length (fs_buf s) <= length (fs_recv s))%nat.
Proof.
  intros s P. rewrite <- (map_length fst (fs_buf s)). apply NoDup_incl_length.
  - pose proof (o_bs _ P) as B. induction B as [|[k v] m S1 IH F]; cbn; constructor; auto. intro I. apply in_map_iff in I as ([k' v'] & E & I).
    cbn in E. subst. rewrite Forall_forall in F. specialize (F _ I). cbn in F. lia.
  - intros i I. apply (o_bspec _ P). clear - I. induction (fs_buf s) as [|[k v] m IH]; [destruct I|]. cbn in *. destruct (i =? k) eqn:E; [discriminate|].
    destruct I as [I|I]; [lia|auto].
Qed.
Definition next_ok (used : list nat) (s s' : fetcher) : Prop :=
  fs_this s' = true -> core used s' /\ ph1 s' /\ fullp [] s' /\ fs_cwnd s' = fs_cwnd s /\ fs_ssth s' = fs_ssth s /\ N.of_nat (length (fs_recv s')) <= f /\ (roomy -> busy s').
Lemma window_ok : forall hs used s, core used s -> ph1 s -> fullp [] s -> (exists z, f2i (fs_cwnd s) = Ok z /\ (1 <= z)%Z) ->
  exists s', fs_window conv o hs s = Ok s' /\ next_ok used s s'.
Proof.
  intros hs used s K P FP (z & Z1 & ZP). unfold fs_window, fs_checkAll.
  assert (GO : forall b, b = false -> N.of_nat (length (fs_recv s)) <= f -> exists s', (let '(all, s0) := (b, s) in if all then fs_finalize o hs s0 else
     let! w := f2i (fs_cwnd s0) in
     let w := if fo_inOrder o then Z.min w (toI64 (toU64 (Z.of_N (fo_flowWin o) - Z.of_nat (length (fs_buf s0))))) else w in
     let avail := (w - fs_infl s0)%Z in
     let! r := fs_pick (Z.to_nat avail + length (fs_retx s0) + length (fs_buf s0)) avail (fs_retx s0) (fs_next s0) s0 [] in
     fs_sendAll conv (fst (fst r)) (wNext (snd r) (wRetx (snd (fst r)) s0))) = Ok s' /\ next_ok used s s').
  { intros b -> LR. rewrite Z1. cbn [bind].
    set (w := if fo_inOrder o then _ else _).
    assert (WP : roomy -> (1 <= w)%Z).
    { intro R. unfold w. destruct R as [->|R]; auto. destruct (fo_inOrder o); auto. pose proof (buf_small s P) as B.
      unfold toU64. rewrite Z.mod_small by lia. unfold toI64. destruct (_ <? _) eqn:E; lia. }
    clearbody w. destruct (o_retx _ P) as [ND HX].
    destruct (pick_ok s (o_nseg _ P) (Z.to_nat (w - fs_infl s) + length (fs_retx s) + length (fs_buf s)) (w - fs_infl s)%Z (fs_retx s) (fs_next s) [])
      as (pre & r' & ys & n' & E & E1 & NY & LN & Y & CV & DN); [apply P|auto|pose proof (bcount_le (fs_next s) (fs_buf s)); lia|].
    cbv zeta. rewrite E. cbn [bind fst snd app]. set (s1 := wNext n' (wRetx r' s)). set (ll := map (fun x => (x, true)) pre ++ map (fun x => (x, false)) ys).
    assert (K1 : core used s1) by (eapply core_ext; [exact K|..]; reflexivity).
    assert (NDr : NoDup (pre ++ r')) by now rewrite <- E1.
    assert (P1 : ph1 s1).
    { destruct P. constructor; cbn; auto; try lia.
      - intros i I. destruct (o_rspec0 i I) as [A [B|B]]; split; auto. left. lia.
      - intros k p G. destruct (o_pspec0 k p G). split; auto. lia.
      - split. { now destruct (nodup_split _ _ _ NDr) as (_ & D & _). }
        intros x I. apply HX. rewrite E1. apply in_or_app. now right. }
    assert (F1 : fullp ll s1).
    { destruct FP. constructor.
      - exact q_kinds0.
      - intros k p G SQ. destruct (q_retx0 k p G SQ) as [X|[]]. rewrite E1 in X. apply in_app_or in X as [X|X]; [|now left]. right. apply in_or_app. left. now apply (in_map (fun x => (x, true))).
      - intros i Li. cbn [fs_next fs_recv fs_pend s1 wNext wRetx] in *. destruct (N.lt_ge_cases i (fs_next s)) as [L|L].
        + destruct (q_cover0 i L) as [X|[X|[]]]; auto.
        + destruct (CV i) as [X|X]; [lia| |left; now apply (o_bspec _ P)]. right. right. apply in_or_app. right. now apply (in_map (fun x => (x, false))). }
    destruct (sendAll_ok used ll s1 K1 P1 F1) as (s2 & E2 & K2 & P2 & FL2 & T2 & C2 & H2 & V1 & V2 & V3).
    - unfold ll. rewrite map_app, !map_map. cbn. rewrite !map_id. destruct (nodup_split _ _ _ NDr) as (NP & _). apply nodup_join; auto.
      intros y I J. apply Y in J as [J _]. destruct (HX y) as (p & G & _); [rewrite E1; apply in_or_app; now left|]. apply (o_pspec _ P) in G. lia.
    - apply Forall_forall. intros [x b] I. apply in_app_or in I as [I|I]; apply in_map_iff in I as (y & Ey & I); injection Ey as <- <-; cbn [fst snd entry_of].
      + destruct (HX y) as (p & G & S1); [rewrite E1; apply in_or_app; now left|]. destruct (o_pspec _ P _ _ G). cbn. splits; eauto; try lia.
        destruct (nodup_split _ _ _ NDr) as (_ & _ & D). apply D. exact I.
      + destruct (Y y I) as [L1 B]. cbn. splits; try lia.
        * destruct (mget y (fs_pend s)) as [p|] eqn:G; auto. apply (o_pspec _ P) in G. lia.
        * intro J. apply (o_rspec _ P) in J as [_ [J|[_ J]]]; [lia|]. contradiction.
        * intro J. destruct (HX y) as (p & G & _); [rewrite E1; apply in_or_app; now right|]. apply (o_pspec _ P) in G. lia.
    - exists s2. split; auto. intros _. splits; auto; [rewrite V1; exact LR|]. intro R. specialize (WP R). unfold busy.
      change (fs_infl s1) with (fs_infl s) in V3. rewrite (k_infl _ _ K) in *.
      destruct (cnt (fs_pend s)) as [|c] eqn:C0; [|left; lia]. destruct ll as [|a ll'] eqn:EL; [|left; cbn [length] in V3; lia]. right.
      assert (pre = [] /\ ys = []) as [-> ->]. { unfold ll in EL. apply app_eq_nil in EL as [X1 X2]. split; [destruct pre|destruct ys]; auto; discriminate. }
      destruct DN as [-> ->]; auto; [lia|]. destruct (missing_one (fs_recv s) (f + 1)) as (i & Li & NI); [lia|].
      destruct (q_cover _ _ F1 i Li) as [X|[X|[]]]; [contradiction|]. change (fs_pend s1) with (fs_pend s) in X. destruct (mget i (fs_pend s)) as [p|] eqn:G; [|congruence].
      destruct (q_kinds _ _ FP i p G) as [X1|[X1|X1]].
      + exfalso. destruct (ps_timer p) as [t|] eqn:TT; [|congruence]. pose proof (cnt_pos _ _ _ _ G TT). lia.
      + exfalso. destruct (q_retx _ _ F1 i p G X1) as [[]|[]].
      + exists (ps_uid p). unfold live in *. rewrite V2. exact X1. }
  destruct (negb (fs_nseg s =? 0)%Z && (fs_nseg s <=? fs_nrecv s)%Z) eqn:B.
  2:{ apply (GO false eq_refl). rewrite (o_nseg _ P), (o_nrecv _ P) in B. lia. }
  rewrite (o_nseg _ P), (o_nrecv _ P) in B.
  assert (L : f + 1 <= N.of_nat (length (fs_recv s))) by lia.
  replace (filter _ (nseqN _)) with (@nil N).
  2:{ rewrite (o_nseg _ P), toU64_nseg. pose proof (pigeon s P L) as X. symmetry. induction (nseqN (f + 1)) as [|i l IH] eqn:E in X |- *; auto.
      assert (A : forall i, In i (nseqN (f + 1)) -> In i (fs_recv s)) by (intros j J; apply X; now apply in_nseqN). clear X IH. rewrite E in A. clear E.
      revert A. generalize (i :: l). clear. intro l. induction l as [|i l IH]; cbn; intro A; auto.
      replace (existsb (N.eqb i) (fs_recv s)) with true by (symmetry; apply existsb_eqb; auto). cbn. auto. }
  unfold fs_finalize. cbn [fs_recv fs_nseg wRetx]. rewrite (o_nseg _ P), toU64_nseg. destruct (fo_inOrder o).
  - eexists. split; [reflexivity|]. intro T. rewrite stop_this in T. discriminate.
  - replace (N.of_nat (length (fs_recv s)) <? f + 1) with false by lia. eexists. split; [reflexivity|]. intro T. rewrite stop_this in T. discriminate.
Qed.

(* ---- the window ---- *)
Definition wadj (s s' : fetcher) : Prop := exists w t r, s' = wCwnd w t (wRec r s).
Lemma f2i_refl : forall w z, f2i w = Ok z -> SFeqb w w = true.
Proof.
  intros w z H. destruct w as [b|b| |b m e]; try discriminate; cbn; auto.
  unfold SFeqb. cbn. destruct b; rewrite Z.compare_refl; rewrite ?Pos.compare_cont_refl; reflexivity.
Qed.
Lemma winInc_ok : forall n used s, core used s -> (exists z, f2i (fo_initCwnd o) = Ok z) -> window_after o n (fs_cwnd s) (fs_ssth s) ->
  exists s', fs_winInc o s = Ok s' /\ wadj s s' /\ window_after o (S n) (fs_cwnd s') (fs_ssth s').
Proof.
  intros n used s K [z FZ] W. unfold fs_winInc. destruct (fo_constCwnd o) eqn:C.
  - rewrite (k_cw _ _ K C), (f2i_refl _ _ FZ). exists s. splits; auto; [|now apply WSame]. exists (fs_cwnd s), (fs_ssth s), (fs_rec s). now destruct s.
  - destruct (SFltb (fs_cwnd s) (fs_ssth s)); (eexists; split; [reflexivity|]; split; [eexists _, _, (fs_rec s); destruct s; reflexivity|]); cbn; [apply WSlow|apply WUp]; auto.
Qed.
Lemma winDec_ok : forall n used s, core used s -> (exists z, f2i (fo_initCwnd o) = Ok z) -> window_after o n (fs_cwnd s) (fs_ssth s) ->
  exists s', fs_winDec o s = Ok s' /\ wadj s s' /\ window_after o (S n) (fs_cwnd s') (fs_ssth s').
Proof.
  intros n used s K [z FZ] W. unfold fs_winDec. destruct (_ || _).
  - destruct (fo_constCwnd o) eqn:C.
    + cbn [fs_cwnd wRec]. rewrite (k_cw _ _ K C), (f2i_refl _ _ FZ). eexists. split; [reflexivity|]. split; [eexists _, _, _; reflexivity|]. cbn. now apply WSame.
    + eexists. split; [reflexivity|]. split; [eexists _, _, _; reflexivity|]. cbn. eapply WDown; eauto.
  - exists s. splits; auto; [|now apply WSame]. exists (fs_cwnd s), (fs_ssth s), (fs_rec s). now destruct s.
Qed.
Lemma wadj_core : forall used s s' n, core used s -> wadj s s' -> window_after o n (fs_cwnd s') (fs_ssth s') -> core used s'.
Proof.
  intros used s s' n K (w & t & r & ->) W. destruct K. constructor; cbn in *; auto.
  intro C. clear - W C. revert C. remember (fo_initCwnd o) as i eqn:I. induction W; intros C; auto; congruence.
Qed.
Lemma ph1_ext : forall s s', ph1 s -> fs_pend s' = fs_pend s -> fs_reqs s' = fs_reqs s -> fs_recv s' = fs_recv s -> fs_nseg s' = fs_nseg s -> fs_nrecv s' = fs_nrecv s ->
  fs_next s' = fs_next s -> fs_buf s' = fs_buf s -> fs_retx s' = fs_retx s -> ph1 s'.
Proof. intros s s' P E1 E2 E3 E4 E5 E6 E7 E8. destruct P. constructor; rewrite ?E1, ?E2, ?E3, ?E4, ?E5, ?E6, ?E7, ?E8 in *; auto. Qed.
Lemma wadj_ph1 : forall s s', ph1 s -> wadj s s' -> ph1 s'.
Proof. intros s s' P (w & t & r & ->). eapply ph1_ext; [exact P|..]; reflexivity. Qed.

(* ---- an answer arrives ---- *)
Lemma minsert_twice : forall A k (a b : A) m, minsert k a (minsert k b m) = minsert k a m.
Proof.
  induction m as [|[k' v] m IH]; cbn; [now rewrite N.eqb_refl|]. destruct (k =? k') eqn:E; [cbn; now rewrite N.eqb_refl|].
  destruct (k <? k') eqn:L; cbn; [rewrite N.eqb_refl; reflexivity|]. now rewrite E, L, IH.
Qed.
Lemma take_core : forall used s s' k p p' id, core used s -> mget k (fs_pend s) = Some p -> ps_timer p = Some id -> ps_uid p' = ps_uid p -> ps_timer p' = None ->
  fs_pend s' = minsert k p' (fs_pend s) -> fs_infl s' = (fs_infl s - 1)%Z -> fs_reqs s' = fs_reqs s -> fs_vals s' = fs_vals s -> fs_recv s' = fs_recv s -> fs_cwnd s' = fs_cwnd s ->
  core (id :: used) s'.
Proof.
  intros used s s' k p p' id K G T U T' P I R V RC CW. destruct (k_tm _ _ K _ _ _ G T) as (L1 & NU & NQ). constructor.
  - rewrite P. apply ksorted_insert, K.
  - rewrite P, I, (k_infl _ _ K). pose proof (cnt_old k p' p _ (k_sorted _ _ K) G) as X. unfold tflag in X. rewrite T, T' in X. lia.
  - rewrite R. intros i [<-|J]; auto. now apply K.
  - rewrite P, R. intros k2 q i G2 T2. rewrite mget_insert in G2. destruct (k2 =? k) eqn:E; [injection G2 as <-; congruence|].
    destruct (k_tm _ _ K _ _ _ G2 T2) as (A1 & A2 & A3). splits; auto. intros [->|J]; auto. assert (X : k2 = k) by (eapply (k_un _ _ K); [exact G|exact G2|eauto|eauto]). lia.
  - rewrite P. intros k2 k3 q q' i G2 G3 T2 T3. rewrite mget_insert in G2, G3. destruct (k2 =? k) eqn:E2; [injection G2 as <-; congruence|].
    destruct (k3 =? k) eqn:E3; [injection G3 as <-; congruence|]. eapply (k_un _ _ K); eauto.
  - rewrite P, R. intros i Li NI. destruct (k_out _ _ K i Li) as (k2 & q & G2 & T2); [intro; apply NI; now right|]. exists k2, q. rewrite mget_insert.
    destruct (k2 =? k) eqn:E; auto. apply N.eqb_eq in E. subst. exfalso. apply NI. left. congruence.
  - rewrite P, R. intros k2 q G2. rewrite mget_insert in G2. destruct (k2 =? k); [injection G2 as <-; rewrite U|]; eapply (k_uid _ _ K); eauto.
  - rewrite P. intros k2 k3 q q' G2 G3 E. rewrite mget_insert in G2, G3. destruct (k2 =? k) eqn:E2, (k3 =? k) eqn:E3; try lia.
    + injection G2 as <-. assert (X : k3 = k) by (eapply (k_uidu _ _ K); [exact G|exact G3|congruence]). lia.
    + injection G3 as <-. assert (X : k2 = k) by (eapply (k_uidu _ _ K); [exact G|exact G2|congruence]). lia.
    + eapply (k_uidu _ _ K); eauto.
  - rewrite P, V. intros v d u m H. destruct (k_val _ _ K _ _ _ _ H) as (k2 & q & G2 & A2 & A3 & A4 & A5). exists k2, q. rewrite mget_insert.
    destruct (k2 =? k) eqn:E; [apply N.eqb_eq in E; subst; congruence|]. splits; auto. unfold vgood in *. now rewrite RC.
  - rewrite V. apply K.
  - intro C. rewrite CW. now apply K.
Qed.
Lemma no_val : forall used s k p id v d m, core used s -> mget k (fs_pend s) = Some p -> ps_timer p = Some id -> nth_error (fs_vals s) v = Some (Some (d, ps_uid p, m)) -> False.
Proof.
  intros used s k p id v d m K G T H. destruct (k_val _ _ K _ _ _ _ H) as (k2 & q & G2 & A2 & A3 & _).
  assert (X : k2 = k) by (eapply (k_uidu _ _ K); [exact G|exact G2|auto]). subst. congruence.
Qed.
Lemma addval_core : forall used s s' k p d m, core used s -> mget k (fs_pend s) = Some p -> ps_timer p = None -> ps_state p <> InRetxQueue -> vgood s d k ->
  (forall v d' m', nth_error (fs_vals s) v <> Some (Some (d', ps_uid p, m'))) ->
  s' = wVals (fs_vals s ++ [Some (d, ps_uid p, m)]) s -> core used s'.
Proof.
  intros used s s' k p d m K G T Q VG NV ->. destruct K. constructor; cbn; auto.
  - intros v d' u m' H. apply nth_snoc in H as [H|[_ H]]; [eauto|]. injection H as -> -> ->. exists k, p. splits; auto.
  - intros v v' d1 u m1 d2 m2 H1 H2. apply nth_snoc in H1 as [H1|[L1 H1]]; apply nth_snoc in H2 as [H2|[L2 H2]]; try lia.
    + eapply k_valu0; eauto.
    + injection H2 as -> -> ->. now apply NV in H1.
    + injection H1 as -> -> ->. now apply NV in H2.
Qed.
Lemma segno_last : forall d j, segno dconv d = Some j -> exists c, nm_last (d_name d) = Some c /\ isKind dconv KSegment c = true /\ toKind dconv KSegment c = Ok j.
Proof.
  unfold segno, nm_last. intros d j H. destruct (rev _) as [|c r]; [discriminate|]. destruct (isKind dconv KSegment c) eqn:E; [|discriminate].
  destruct (toKind dconv KSegment c) eqn:T; [|discriminate]. injection H as ->. exists c. auto.
Qed.
Lemma core_out : forall used s id, core used s -> (id < length (fs_reqs s))%nat -> ~ In id used ->
  exists k p, mget k (fs_pend s) = Some p /\ ps_timer p = Some id /\ (0 < fs_infl s)%Z.
Proof. intros used s id K L U. destruct (k_out _ _ K id L U) as (k & p & G & T). exists k, p. splits; auto. rewrite (k_infl _ _ K). pose proof (cnt_pos _ _ _ _ G T). lia. Qed.
Lemma nth_lt : forall A (l : list A) i x, nth_error l i = Some x -> (i < length l)%nat.
Proof. intros. apply nth_error_Some. congruence. Qed.
Lemma stopped_fire : forall hs ob s, fs_this s = false -> fs_this (fs_fire hs ob s) = false.
Proof. intros. unfold fs_fire. destruct (hs ob); auto. apply stop_this. Qed.
Lemma ph0_get : forall s k p, ph0 s -> mget k (fs_pend s) = Some p -> k = 0 /\ fs_pend s = [(0, p)] /\ ps_state p <> InRetxQueue.
Proof.
  intros s k p P G. destruct (z_pend _ P) as (q & E & Q). rewrite E in G. cbn in G. destruct (k =? 0) eqn:Z0; [|discriminate]. injection G as <-. splits; auto. lia.
Qed.

Definition stepped (n : nat) (used : list nat) (r : res fetcher) : Prop :=
  exists s', r = Ok s' /\ (fs_this s' = true -> inv used s' /\ window_after o (S n) (fs_cwnd s') (fs_ssth s')).
Lemma stepped_stop : forall n used s, fs_this s = false -> stepped n used (Ok s).
Proof. intros. exists s. split; auto. congruence. Qed.
Lemma data_step : forall n used hs id nm d m s, inv used s -> fs_this s = true -> window_after o n (fs_cwnd s) (fs_ssth s) ->
  nth_error (fs_reqs s) id = Some nm -> polite_ev dconv o f used (FData id d m) s -> stepped n (id :: used) (fs_data dconv hs d m s).
Proof.
  intros n used hs id nm d m s (K & KD & PH & LR & BU) TH W NE [NU PE]. destruct (PE _ NE) as (FN & j & SG & JF & MJ & M0). clear PE.
  destruct (core_out _ _ _ K (nth_lt _ _ _ _ NE) NU) as (k & p & G & T & I0). destruct (k_tm _ _ K _ _ _ G T) as (_ & _ & NQ).
  destruct (segno_last _ _ SG) as (c & NL & IK & TK).
  unfold fs_data. rewrite TH. cbn [negb]. replace (fs_infl s <=? 0)%Z with false by lia. rewrite NL, IK, TK. cbn [negb bind fs_recv fs_pend wInfl].
  assert (IT : (match fs_recv s with [] => match fs_pend s with [] => None | kp :: _ => Some kp end
     | _ => match mget j (fs_pend s) with Some p => Some (j, p) | None => None end end) = Some (k, p) /\ vgood s d k).
  { destruct PH as [P|[P FP]].
    - destruct (ph0_get _ _ _ P G) as (-> & E & _). rewrite (z_recv _ P), E. split; auto. split; auto. exists j. splits; auto.
      + rewrite (z_recv _ P). congruence.
      + intros _. apply M0. eapply (z_names _ P); eauto.
    - assert (j = k) by (apply MJ; eapply (o_names _ P); eauto). subst j. rewrite G. pose proof (o_recv _ P). destruct (fs_recv s) eqn:RC; [congruence|]. split; auto.
      split; auto. exists k. splits; auto. rewrite RC. congruence. }
  destruct IT as [IT VG]. rewrite IT. set (p' := mkPs (ps_uid p) (ps_state p) (ps_req p) None). set (s1 := wPend _ _).
  assert (K1 : core (id :: used) s1) by (eapply (take_core used s s1 k p p' id); eauto; reflexivity).
  assert (G1 : mget k (fs_pend s1) = Some p') by (cbn; rewrite mget_insert, N.eqb_refl; reflexivity).
  unfold fs_fire. destruct (hs (OReceived d)). { apply stepped_stop. unfold fs_stop. cbn. now rewrite TH. }
  set (s2 := wVals _ _). exists s2. split; auto. intros _.
  assert (LV : forall u, live s u -> live s2 u).
  { intros u (v & d' & m' & H). exists v, d', m'. cbn. rewrite nth_error_app1; auto. now apply nth_lt in H. }
  assert (LN : live s2 (ps_uid p)). { exists (length (fs_vals s)), d, m. cbn. rewrite nth_error_app2, Nat.sub_diag; auto. }
  assert (KD2 : kinds s2).
  { intros k2 q G2. cbn in G2. rewrite mget_insert in G2. destruct (k2 =? k); [injection G2 as <-; auto|]. destruct (KD k2 q G2) as [X|[X|X]]; auto. }
  split; [unfold inv; splits|cbn; now apply WSame].
  - eapply (addval_core (id :: used) (wLog (fs_log s1 ++ [OReceived d]) s1) s2 k p' d m); [eapply core_ext; [exact K1|..]; reflexivity|exact G1|reflexivity|exact NQ| | |reflexivity].
    + exact VG.
    + intros v d' m' H. cbn in H. eapply (no_val used s); eauto.
  - exact KD2.
  - destruct PH as [P|[P FP]].
    + left. destruct (ph0_get _ _ _ P G) as (-> & E & _). destruct P. constructor; cbn; auto. exists p'. rewrite E. cbn. auto.
    + right. split.
      * destruct P. constructor; cbn; auto.
        -- intros k2 q G2. rewrite mget_insert in G2. destruct (k2 =? k) eqn:E; [apply N.eqb_eq in E; subst|]; eauto.
        -- intros k2 q i x G2 T2 N2. rewrite mget_insert in G2. destruct (k2 =? k); [injection G2 as <-; discriminate|eauto].
        -- destruct o_retx0 as [A B]. split; auto. intros x I. destruct (B x I) as (q & GQ & SQ). rewrite mget_insert. destruct (x =? k) eqn:E; eauto.
           apply N.eqb_eq in E. subst. congruence.
      * destruct FP. constructor; auto.
        -- intros k2 q G2 SQ. cbn in G2. rewrite mget_insert in G2. destruct (k2 =? k); [injection G2 as <-; contradiction|]. exact (q_retx0 k2 q G2 SQ).
        -- intros i Li. cbn. rewrite mget_insert. destruct (i =? k); [right; left; discriminate|]. exact (q_cover0 i Li).
  - exact LR.
  - intros _. right. eauto.
Qed.

(* ---- a request fails ---- *)
Lemma name_last : forall nm k, name_segno dconv nm = Some k -> exists c, nm_last nm = Some c /\ isKind dconv KSegment c = true /\ toKind dconv KSegment c = Ok k.
Proof.
  unfold name_segno, nm_last. intros nm k H. destruct (rev _) as [|c r]; [discriminate|]. destruct (isKind dconv KSegment c) eqn:E; [|discriminate].
  destruct (toKind dconv KSegment c) eqn:T; [|discriminate]. injection H as ->. exists c. auto.
Qed.
Lemma name_nolast : forall nm, name_segno dconv nm = None -> match nm_last nm with Some c => isKind dconv KSegment c = false | None => True end.
Proof.
  unfold name_segno, nm_last. intros nm H. destruct (rev _) as [|c r]; auto. pose proof (isKind_toKind dconv KSegment c) as X.
  destruct (isKind dconv KSegment c); auto. destruct (toKind dconv KSegment c); [discriminate|]. exact X.
Qed.
(* s1: the state before, except that the timer may have been cleared and the request is no longer counted *)
Lemma retry_step : forall n used hs id nm now k p s s1, inv used s -> fs_this s = true -> window_after o n (fs_cwnd s) (fs_ssth s) -> windows_ok o (S n) ->
  (exists z, f2i (fo_initCwnd o) = Ok z) ->
  mget k (fs_pend s) = Some p -> ps_timer p = Some id -> nth_error (fs_reqs s) id = Some nm ->
  (exists pd lg, s1 = wPend pd (wInfl (fs_infl s - 1)%Z (wLog lg s)) /\ (pd = fs_pend s \/ exists q, pd = minsert k q (fs_pend s) /\ ps_uid q = ps_uid p)) ->
  stepped n (id :: used) (fs_retry conv dconv o hs nm now s1).
Proof.
  intros n used hs id nm now k p s s1 (K & KD & PH & LR & BU) TH W WO FZ G T NE (pd & lg & -> & HP). destruct (k_tm _ _ K _ _ _ G T) as (_ & _ & NQ).
  unfold fs_retry. destruct (_ <=? _)%Z. { apply stepped_stop. unfold fs_error. apply stop_this. }
  cbn [fs_pend wPend].
  assert (G1 : exists q, mget k pd = Some q /\ ps_uid q = ps_uid p). { destruct HP as [->|(q & -> & U)]; [eauto|]. exists q. rewrite mget_insert, N.eqb_refl. auto. }
  destruct G1 as (q & G1 & UQ).
  assert (MI : forall x, minsert k x pd = minsert k x (fs_pend s)). { intro x. destruct HP as [->|(q' & -> & _)]; auto. apply minsert_twice. }
  destruct pd as [|first rest] eqn:EP; [discriminate|]. rewrite <- EP in *.
  assert (KP : (match nm_last nm with Some c => if isKind dconv KSegment c then let! x := toKind dconv KSegment c in
     match mget x pd with Some p0 => Ok (x, p0) | None => Err EAssert end else Ok first | None => Ok first end) = Ok (k, q)).
  { destruct PH as [P|[P FP]].
    - destruct (ph0_get _ _ _ P G) as (-> & E & _). pose proof (name_nolast nm (z_names _ P _ _ NE)) as X.
      assert (first = (0, q)). { destruct HP as [HP|(q' & HP & _)]; rewrite E in HP; cbn [minsert] in HP; rewrite ?N.eqb_refl in HP; rewrite HP in G1, EP; cbn [mget] in G1; rewrite N.eqb_refl in G1; congruence. } subst first.
      destruct (nm_last nm); [rewrite X|]; reflexivity.
    - destruct (name_last _ _ (o_names _ P _ _ _ _ G T NE)) as (c & -> & -> & ->). cbn [bind]. now rewrite G1. }
  rewrite KP. cbn [bind fst snd]. rewrite MI, UQ. set (p' := mkPs (ps_uid p) InRetxQueue (ps_req q) None). set (s2 := wPend _ _).
  assert (K2 : core (id :: used) s2) by (eapply (take_core used s s2 k p p' id); eauto; reflexivity).
  assert (G2 : mget k (fs_pend s2) = Some p') by (cbn; rewrite mget_insert, N.eqb_refl; reflexivity).
  change (fs_recv s2) with (fs_recv s). destruct PH as [P|[P FP]].
  - rewrite (z_recv _ P). destruct (ph0_get _ _ _ P G) as (-> & E & _). unfold fs_first.
    match goal with |- context [fs_send 0 nm true ?b true s2] => destruct (send_core (id :: used) 0 nm true b true s2 K2) as (s3 & p3 & E3 & K3 & Pe & Re & T3 & S3 & R1 & R2 & R3 & R4 & R5 & R6 & R7 & R8 & R9 & R10 & R11 & R12) end.
    { cbn [entry_of]. exists p'. auto. }
    exists s3. split; auto. intros _. split; [|rewrite R9, R10; now apply WSame].
    assert (PE3 : fs_pend s3 = [(0, p3)]) by (rewrite Pe; cbn [fs_pend s2 wPend]; rewrite E; reflexivity).
    unfold inv. splits; [exact K3| |left|rewrite R1; exact LR|intros _; left; rewrite R12, (k_infl _ _ K2); lia].
    { intros k2 q2 GX. rewrite PE3 in GX. cbn in GX. destruct (k2 =? 0); [|discriminate]. injection GX as <-. left. congruence. }
    destruct P. constructor; rewrite ?R1, ?R2, ?R3, ?R4, ?R5, ?R6; auto.
    + exists p3. auto.
    + intros i x H. rewrite Re in H. apply nth_snoc in H as [H|[_ ->]]; [eauto|]. eapply z_names0; eauto.
  - destruct (fs_recv s) eqn:RC; [now destruct (o_recv _ P)|].
    destruct (winDec_ok n _ s2 K2 FZ W) as (s3 & E3 & A3 & W3). rewrite E3. cbn [bind].
    assert (K3 : core (id :: used) s3) by (eapply wadj_core; eauto).
    set (s4 := wRetx _ s3). assert (K4 : core (id :: used) s4) by (eapply core_ext; [exact K3|..]; reflexivity).
    assert (P4 : ph1 s4).
    { destruct A3 as (w & t & r & ->). destruct P. constructor; cbn; auto.
      - intros k2 x GX. rewrite mget_insert in GX. destruct (k2 =? k) eqn:E; [apply N.eqb_eq in E; subst|]; eauto.
      - intros k2 x i y GX TX NX. rewrite mget_insert in GX. destruct (k2 =? k); [injection GX as <-; discriminate|eauto].
      - destruct o_retx0 as [A B]. split.
        + apply nodup_join; auto; [constructor; [auto|constructor]|]. intros x I [<-|[]]. destruct (B k I) as (y & GY & SY). congruence.
        + intros x I. rewrite mget_insert. destruct (x =? k) eqn:E; [exists p'; auto|]. apply in_app_or in I as [I|[<-|[]]]; [auto|lia]. }
    assert (F4 : fullp [] s4).
    { destruct A3 as (w & t & r & ->). destruct FP. constructor.
      - intros k2 x GX. cbn in GX. rewrite mget_insert in GX. destruct (k2 =? k); [injection GX as <-; auto|]. exact (q_kinds0 k2 x GX).
      - intros k2 x GX SX. cbn in GX. rewrite mget_insert in GX. cbn [fs_retx s4 wRetx]. left. apply in_or_app. destruct (k2 =? k) eqn:E; [right; left; lia|].
        destruct (q_retx0 k2 x GX SX) as [X|[]]. left. exact X.
      - intros i Li. cbn. rewrite mget_insert. destruct (i =? k); [right; left; discriminate|]. exact (q_cover0 i Li). }
    destruct (window_ok hs _ s4 K4 P4 F4 (WO _ _ W3)) as (s5 & E5 & N5). exists s5. split; [exact E5|]. intro T5. destruct (N5 T5) as (K5 & P5 & F5 & C5 & H5 & L5 & B5).
    split; [|rewrite C5, H5; exact W3]. unfold inv. splits; auto. apply F5.
Qed.
Lemma quiet_fire : forall hs ob s, strict hs -> may_stop ob = false -> fs_fire hs ob s = wLog (fs_log s ++ [ob]) s.
Proof. intros hs ob s S1 M. unfold fs_fire. destruct (hs ob) eqn:E; auto. apply S1 in E. congruence. Qed.
Lemma nack_step : forall n used hs id nm r now s, strict hs -> inv used s -> fs_this s = true -> window_after o n (fs_cwnd s) (fs_ssth s) -> windows_ok o (S n) ->
  (exists z, f2i (fo_initCwnd o) = Ok z) -> nth_error (fs_reqs s) id = Some nm -> ~ In id used -> stepped n (id :: used) (fs_nack conv dconv o hs nm r now s).
Proof.
  intros n used hs id nm r now s S1 I TH W WO FZ NE NU. destruct I as (K & KD & PH & LR & BU) eqn:EI. destruct (core_out _ _ _ K (nth_lt _ _ _ _ NE) NU) as (k & p & G & T & I0).
  unfold fs_nack. rewrite TH. cbn [negb]. rewrite quiet_fire by auto. cbn [fs_infl wLog]. replace (fs_infl s <=? 0)%Z with false by lia.
  destruct (_ || _).
  - eapply (retry_step n used hs id nm now k p s); eauto. exists (fs_pend s), (fs_log s ++ [ONacked]). split; auto.
  - apply stepped_stop. unfold fs_error. apply stop_this.
Qed.
Lemma timer_step : forall n used hs id nm now s, strict hs -> inv used s -> fs_this s = true -> window_after o n (fs_cwnd s) (fs_ssth s) -> windows_ok o (S n) ->
  (exists z, f2i (fo_initCwnd o) = Ok z) -> nth_error (fs_reqs s) id = Some nm -> has_timer id s = true ->
  stepped n (id :: used) (fs_timeout conv dconv o hs nm now (wPend (map (clear_timer id) (fs_pend s)) s)).
Proof.
  intros n used hs id nm now s S1 I TH W WO FZ NE HT. destruct I as (K & KD & PH & LR & BU) eqn:EI. destruct (has_timer_get id s (k_sorted _ _ K) HT) as (k & p & G & T).
  assert (I0 : (0 < fs_infl s)%Z) by (rewrite (k_infl _ _ K); pose proof (cnt_pos _ _ _ _ G T); lia).
  rewrite (clear_one id (fs_pend s) k p (k_sorted _ _ K) G T). 2:{ intros k' p' G' T'. eapply (k_un _ _ K); eauto. }
  unfold fs_timeout. cbn [fs_this wPend]. rewrite TH. cbn [negb]. rewrite quiet_fire by auto. cbn [fs_infl wLog wPend]. replace (fs_infl s <=? 0)%Z with false by lia.
  eapply (retry_step n used hs id nm now k p s); eauto. eexists _, (fs_log s ++ [OTimedOut]). split; [reflexivity|]. right. eexists. split; [reflexivity|]. reflexivity.
Qed.

(* ---- a segment is validated ---- *)
Lemma mget_in : forall A k v (m : list (N * A)), ksorted m -> (In (k, v) m <-> mget k m = Some v).
Proof.
  induction m as [|[k' w] m IH]; intro S1; cbn; [split; [tauto|discriminate]|]. inversion S1 as [|a b S2 F]; subst. specialize (IH S2). destruct (k =? k') eqn:E.
  - apply N.eqb_eq in E. subst k'. split.
    + intros [H|H]; [congruence|]. rewrite Forall_forall in F. specialize (F _ H). cbn in F. lia.
    + intro H. left. congruence.
  - rewrite <- IH. split; [intros [H|H]; auto|auto]. injection H as -> ->. lia.
Qed.
Lemma filter_uid : forall used s k p, core used s -> mget k (fs_pend s) = Some p ->
  exists rest, filter (fun kp => Nat.eqb (ps_uid (snd kp)) (ps_uid p)) (fs_pend s) = (k, p) :: rest.
Proof.
  intros used s k p K G. pose proof (k_sorted _ _ K) as S1. destruct (filter _ _) as [|[k' p'] rest] eqn:F.
  - exfalso. assert (X : In (k, p) (filter (fun kp => Nat.eqb (ps_uid (snd kp)) (ps_uid p)) (fs_pend s))).
    { apply filter_In. split; [now apply mget_in|]. cbn. apply Nat.eqb_refl. } rewrite F in X. destruct X.
  - assert (X : In (k', p') (filter (fun kp => Nat.eqb (ps_uid (snd kp)) (ps_uid p)) (fs_pend s))) by (rewrite F; now left).
    apply filter_In in X as [X1 X2]. apply mget_in in X1; auto. cbn in X2. apply Nat.eqb_eq in X2.
    assert (k = k') by (eapply (k_uidu _ _ K); eauto). subst. exists rest. congruence.
Qed.
Lemma replace_nth_none : forall A v (l : list (option A)) i x, nth_error (replace_nth v None l) i = Some (Some x) -> (v < length l)%nat -> nth_error l i = Some (Some x) /\ i <> v.
Proof.
  unfold replace_nth. intros A v l i x H L. assert (LF : length (firstn v l) = v) by (apply firstn_length_le; lia).
  destruct (Nat.lt_trichotomy i v) as [C|[->|C]].
  - rewrite nth_error_app1 in H by lia. split; [|lia]. rewrite <- (firstn_skipn v l), nth_error_app1 by lia. exact H.
  - rewrite nth_error_app2, LF, Nat.sub_diag in H by lia. discriminate.
  - rewrite nth_error_app2, LF in H by lia. split; [|lia]. destruct (i - v)%nat as [|j] eqn:E; [lia|]. cbn in H.
    rewrite <- (firstn_skipn (S v) l), nth_error_app2; rewrite firstn_length_le by lia; [|lia]. replace (i - S v)%nat with j by lia. exact H.
Qed.
Lemma replace_nth_other : forall A v (x : A) l i, i <> v -> (v < length l)%nat -> nth_error (replace_nth v x l) i = nth_error l i.
Proof.
  unfold replace_nth. intros A v x l i NE L. assert (LF : length (firstn v l) = v) by (apply firstn_length_le; lia).
  destruct (Nat.lt_ge_cases i v) as [C|C].
  - rewrite nth_error_app1 by lia. rewrite <- (firstn_skipn v l) at 2. rewrite nth_error_app1 by lia. reflexivity.
  - rewrite nth_error_app2, LF by lia. destruct (i - v)%nat as [|j] eqn:E; [lia|]. cbn [nth_error].
    rewrite <- (firstn_skipn (S v) l) at 2. rewrite nth_error_app2; rewrite firstn_length_le by lia; [|lia]. f_equal. lia.
Qed.
Lemma remove_core : forall used s s' k p v d m, core used s -> nth_error (fs_vals s) v = Some (Some (d, ps_uid p, m)) -> mget k (fs_pend s) = Some p -> ps_timer p = None ->
  fs_pend s' = mremove k (fs_pend s) -> fs_infl s' = fs_infl s -> fs_reqs s' = fs_reqs s -> fs_vals s' = replace_nth v None (fs_vals s) -> fs_cwnd s' = fs_cwnd s ->
  (fs_recv s <> [] /\ fs_recv s' <> [] \/ fs_pend s = [(k, p)]) -> core used s'.
Proof.
  intros used s s' k p v d m K HV G T P I R V CW RC. pose proof (nth_lt _ _ _ _ HV) as LV. constructor.
  - rewrite P. apply ksorted_remove, K.
  - rewrite P, I, (k_infl _ _ K). pose proof (cnt_remove k p _ (k_sorted _ _ K) G) as X. unfold tflag in X. rewrite T in X. lia.
  - rewrite R. apply K.
  - rewrite P, R. intros k2 q id G2 T2. rewrite mget_remove in G2. destruct (k2 =? k); [discriminate|]. eapply (k_tm _ _ K); eauto.
  - rewrite P. intros k2 k3 q q' id G2 G3 T2 T3. rewrite mget_remove in G2, G3. destruct (k2 =? k); [discriminate|]. destruct (k3 =? k); [discriminate|]. eapply (k_un _ _ K); eauto.
  - rewrite P, R. intros id L U. destruct (k_out _ _ K id L U) as (k2 & q & G2 & T2). exists k2, q. rewrite mget_remove. destruct (k2 =? k) eqn:E; auto.
    apply N.eqb_eq in E. subst. congruence.
  - rewrite P, R. intros k2 q G2. rewrite mget_remove in G2. destruct (k2 =? k); [discriminate|]. eapply (k_uid _ _ K); eauto.
  - rewrite P. intros k2 k3 q q' G2 G3 E. rewrite mget_remove in G2, G3. destruct (k2 =? k); [discriminate|]. destruct (k3 =? k); [discriminate|]. eapply (k_uidu _ _ K); eauto.
  - rewrite V. intros v2 d2 u2 m2 H2. apply replace_nth_none in H2 as [H2 NE]; auto. destruct (k_val _ _ K _ _ _ _ H2) as (k2 & q & G2 & A2 & A3 & A4 & A5).
    assert (k2 <> k). { intros ->. assert (q = p) by congruence. subst. apply NE. eapply (k_valu _ _ K); eauto. }
    exists k2, q. rewrite P, mget_remove. replace (k2 =? k) with false by lia. splits; auto.
    destruct RC as [[R1 R2]|RC]; [|rewrite RC in G2; cbn in G2; replace (k2 =? k) with false in G2 by lia; discriminate].
    destruct A5 as (F1 & j & B1 & B2 & B3 & B4). split; auto. exists j. splits; auto. contradiction.
  - rewrite V. intros v2 v3 d2 u m2 d3 m3 H2 H3. apply replace_nth_none in H2 as [H2 _]; auto. apply replace_nth_none in H3 as [H3 _]; auto. eapply (k_valu _ _ K); eauto.
  - intro C. rewrite CW. now apply K.
Qed.
Lemma mremove_length : forall A k v (m : list (N * A)), mget k m = Some v -> (length (mremove k m) < length m)%nat.
Proof.
  assert (LE : forall A k (m : list (N * A)), (length (mremove k m) <= length m)%nat).
  { unfold mremove. induction m as [|[k' w] m IH]; cbn; auto. destruct (negb (k' =? k)); cbn; lia. }
  induction m as [|[k' w] m IH]; intro H; [discriminate|]. cbn in H. unfold mremove in *. cbn. specialize (LE A k m). unfold mremove in LE. destruct (k =? k') eqn:E.
  - replace (k' =? k) with true by lia. cbn. lia.
  - replace (k' =? k) with false by lia. cbn. specialize (IH H). lia.
Qed.
Lemma deliver_ok : forall hs, strict hs -> forall fuel s v, mget (fs_nextOrd s) (fs_buf s) = Some v -> (length (fs_buf s) <= fuel)%nat ->
  exists lg b nx, fs_deliver hs fuel s = Ok (wLog lg (wBuf b nx s)) /\ (forall i, mget i b <> None -> mget i (fs_buf s) <> None) /\ (ksorted (fs_buf s) -> ksorted b).
Proof.
  intros hs S1. induction fuel as [|fuel IH]; intros s v G L; pose proof (mremove_length _ _ _ _ G) as ML; [lia|]. cbn [fs_deliver]. rewrite G.
  rewrite quiet_fire by auto. set (s1 := wBuf _ _ _). assert (SUB : forall i, mget i (fs_buf s1) <> None -> mget i (fs_buf s) <> None).
  { intro i. unfold s1. cbn [fs_buf wBuf]. rewrite mget_remove. cbn [fs_buf wLog]. destruct (i =? _); congruence. }
  destruct (mget (fs_nextOrd s1) (fs_buf s1)) as [v'|] eqn:G1.
  - destruct (IH s1 v' G1) as (lg & b & nx & E & S2 & S3); [change (fs_buf s1) with (mremove (fs_nextOrd s) (fs_buf s)); lia|]. exists lg, b, nx. rewrite E. splits; [reflexivity|auto|]. intro KS. apply S3. now apply ksorted_remove.
  - exists (fs_log s1), (fs_buf s1), (fs_nextOrd s1). splits; [reflexivity|exact SUB|]. apply ksorted_remove.
Qed.
Lemma validated_eq : forall hs d uid m now s c cur k p rest v, fs_this s = true -> nm_last (d_name d) = Some c -> toKind dconv KSegment c = Ok cur ->
  filter (fun kp => Nat.eqb (ps_uid (snd kp)) uid) (fs_pend s) = (k, p) :: rest -> (0 <= fs_infl s)%Z -> vbuf cur d s = Ok v ->
  fs_validated conv dconv o hs d uid m now s =
    (let! r := vfinal dconv hs d (fs_fire hs (OValidated d) (vstart cur now v k s)) in match r with inl s1 => Ok s1 | inr s1 => vgo conv o hs d cur m s1 end).
Proof.
  intros hs d uid m now s c cur k p rest v T L K F I V. unfold fs_validated. rewrite T, L, K. cbn [negb bind fs_pend wNrecv wTlast]. rewrite F. cbn [fs_infl wNrecv wTlast].
  replace (fs_infl s <? 0)%Z with false by lia. rewrite Bool.andb_false_r. cbn [fs_buf wPend wNrecv wTlast]. fold (vbuf cur d s). rewrite V. cbn [bind].
  match goal with |- context [fs_fire hs (OValidated d) ?X] => change X with (vstart cur now v k s) end.
  set (s1 := fs_fire hs (OValidated d) (vstart cur now v k s)). unfold vfinal. destruct (mi_final (d_meta d)) as [fc|]; [|reflexivity].
  destruct (negb (isKind dconv KSegment fc)); [reflexivity|]. destruct (toKind dconv KSegment fc) as [last|]; cbn [bind]; [|reflexivity].
  destruct (_ =? _); [reflexivity|]. destruct (fs_cancelExcess _); reflexivity.
Qed.
Definition vnext (cur : N) (s : fetcher) : N := match fs_recv s with [_] => if cur =? 0 then (fs_next s + 1) mod two64 else fs_next s | _ => fs_next s end.
Lemma vgo_step : forall n used hs d cur m s v, strict hs -> core used s -> ph1 (wNext (vnext cur s) s) -> fullp [] (wNext (vnext cur s) s) -> mget cur (fs_buf s) = Some v ->
  window_after o n (fs_cwnd s) (fs_ssth s) -> windows_ok o (S n) -> (exists z, f2i (fo_initCwnd o) = Ok z) -> stepped n used (vgo conv o hs d cur m s).
Proof.
  intros n used hs d cur m s v S1 K P FP G W WO FZ. unfold vgo.
  assert (D : exists s2 lg b nx, (if fo_inOrder o && (fs_nextOrd s =? cur) then fs_deliver hs (S (length (fs_buf s))) s else Ok s) = Ok s2 /\ s2 = wLog lg (wBuf b nx s) /\
     (forall i, mget i b <> None -> mget i (fs_buf s) <> None) /\ (fo_inOrder o = false -> b = fs_buf s) /\ (ksorted (fs_buf s) -> ksorted b)).
  { destruct (fo_inOrder o) eqn:IO; cbn [andb]; [destruct (fs_nextOrd s =? cur) eqn:E|].
    - apply N.eqb_eq in E. rewrite <- E in G. destruct (deliver_ok hs S1 (S (length (fs_buf s))) s v G) as (lg & b & nx & E2 & SUB & KS); [lia|].
      exists (wLog lg (wBuf b nx s)), lg, b, nx. splits; auto. discriminate.
    - exists s, (fs_log s), (fs_buf s), (fs_nextOrd s). splits; auto. now destruct s.
    - exists s, (fs_log s), (fs_buf s), (fs_nextOrd s). splits; auto. now destruct s. }
  destruct D as (s2 & lg & b & nx & E2 & -> & SUB & SAME & KS). rewrite E2. cbn [bind]. clear E2.
  set (s2 := wLog lg (wBuf b nx s)).
  set (s3 := match fs_recv s2 with [_] => _ | _ => s2 end).
  assert (E3 : exists ver, s3 = wVer ver (wNext (vnext cur s) s2)).
  { unfold s3, vnext. change (fs_recv s2) with (fs_recv s). destruct (fs_recv s) as [|a [|a' r]]; [exists (fs_ver s2); reflexivity| |exists (fs_ver s2); reflexivity].
    exists (nm_getPrefix (-1) (d_name d)). cbv zeta. destruct (cur =? 0); reflexivity. }
  destruct E3 as [ver E3]. clearbody s3. cbv zeta. set (s4 := if fs_highData s3 <? cur then wHighData cur s3 else s3).
  assert (E4 : exists hd, s4 = wHighData hd s3). { unfold s4. destruct (_ <? _); [eauto|]. exists (fs_highData s3). now destruct s3. }
  destruct E4 as [hd E4]. clearbody s4. subst s3 s4. set (s4 := wHighData hd _).
  assert (K4 : core used s4) by (eapply core_ext; [exact K|..]; reflexivity).
  assert (P4 : ph1 s4).
  { destruct P. constructor; cbn in *; auto.
    - intros i I. destruct (o_rspec0 i I) as [A [B|[B C]]]; split; auto. right. split; auto. now rewrite (SAME B). }
  assert (F4 : fullp [] s4) by (destruct FP; constructor; auto).
  assert (W4 : window_after o n (fs_cwnd s4) (fs_ssth s4)) by exact W.
  assert (E5 : exists s5, (if m && negb (fo_ignoreCong o) then fs_winDec o s4 else fs_winInc o s4) = Ok s5 /\ wadj s4 s5 /\ window_after o (S n) (fs_cwnd s5) (fs_ssth s5)).
  { destruct (_ && _); [eapply winDec_ok|eapply winInc_ok]; eauto. }
  destruct E5 as (s5 & E5 & A5 & W5). rewrite E5. cbn [bind].
  destruct (window_ok hs used s5) as (s6 & E6 & N6); [eapply wadj_core; eauto|eapply wadj_ph1; eauto|destruct A5 as (w5 & t5 & r5 & ->); destruct F4; constructor; auto|exact (WO _ _ W5)|].
  exists s6. split; [exact E6|]. intro T6. destruct (N6 T6) as (K6 & P6 & F6 & C6 & H6 & L6 & B6). split; [|rewrite C6, H6; exact W5]. unfold inv. splits; auto. apply F6.
Qed.
Lemma final_kind : forall d, finalno dconv d = Some f -> exists c, mi_final (d_meta d) = Some c /\ isKind dconv KSegment c = true /\ toKind dconv KSegment c = Ok f.
Proof.
  unfold finalno. intros d H. destruct (mi_final (d_meta d)) as [c|]; [|discriminate]. exists c. pose proof (isKind_toKind dconv KSegment c) as X.
  destruct (toKind dconv KSegment c); [|discriminate]. injection H as ->. auto.
Qed.
Lemma ph1_first : forall s j v, fs_recv s = [j] -> fs_nseg s = Z.of_N (f + 1) -> fs_nrecv s = 1%Z -> fs_pend s = [] -> fs_buf s = [(j, v)] -> fs_retx s = [] -> fs_next s = 0 ->
  j <= f -> (fo_inOrder o = true -> j = 0) -> ph1 (wNext (vnext j s) s) /\ fullp [] (wNext (vnext j s) s).
Proof.
  intros s j v R NS NR PE B RX NX JF J0.
  assert (VN : vnext j s = if j =? 0 then 1 else 0). { unfold vnext. rewrite R, NX. reflexivity. }
  rewrite VN. split; constructor; cbn [fs_recv fs_nseg fs_nrecv fs_next fs_buf fs_pend fs_reqs fs_retx wNext]; rewrite ?R, ?NS, ?NR, ?PE, ?B, ?RX; auto; try discriminate.
  - constructor; [auto|constructor].
  - repeat constructor.
  - destruct (j =? 0); lia.
  - intros i [<-|[]]. split; auto. destruct (j =? 0) eqn:E; [left; lia|]. right. split; [|cbn; rewrite N.eqb_refl; discriminate]. destruct (fo_inOrder o); auto. specialize (J0 eq_refl). lia.
  - intros i X. cbn in X. destruct (i =? j) eqn:E; [left; lia|congruence].
  - split; [constructor|intros x []].
  - intros k p G. cbn in G. rewrite PE in G. discriminate.
  - intros i Li. left. left. destruct (j =? 0) eqn:E; lia.
Qed.
Lemma ph1_more : forall used s s1 k p v d m b, core used s -> ph1 s -> fullp [] s -> nth_error (fs_vals s) v = Some (Some (d, ps_uid p, m)) -> mget k (fs_pend s) = Some p -> ps_state p <> InRetxQueue ->
  k <= f -> fs_recv s1 = k :: fs_recv s -> fs_nseg s1 = fs_nseg s -> fs_nrecv s1 = (fs_nrecv s + 1)%Z -> fs_pend s1 = mremove k (fs_pend s) -> fs_buf s1 = minsert k b (fs_buf s) ->
  fs_retx s1 = fs_retx s -> fs_next s1 = fs_next s -> fs_reqs s1 = fs_reqs s -> fs_vals s1 = replace_nth v None (fs_vals s) ->
  ph1 (wNext (vnext k s1) s1) /\ fullp [] (wNext (vnext k s1) s1).
Proof.
  intros used s s1 k p v d m b K P FP HV G Q KF R NS NR PE B RX NX RQ VS.
  assert (VN : vnext k s1 = fs_next s). { unfold vnext. rewrite R, NX. pose proof (o_recv _ P). destruct (fs_recv s); [congruence|reflexivity]. }
  rewrite VN. destruct (o_pspec _ P k p G) as [LK NK]. split.
  - destruct P. constructor; cbn [fs_recv fs_nseg fs_nrecv fs_next fs_buf fs_pend fs_reqs fs_retx wNext]; rewrite ?R, ?NS, ?NR, ?PE, ?B, ?RX, ?RQ; auto; try discriminate.
    + constructor; auto.
    + cbn [length]. lia.
    + now apply ksorted_insert.
    + intros i [<-|I]; [split; auto|]. destruct (o_rspec0 i I) as [A [C|[C D]]]; split; auto. right. split; auto. rewrite mget_insert. destruct (i =? k); [discriminate|auto].
    + intros k2 q G2. rewrite mget_remove in G2. destruct (k2 =? k) eqn:E; [discriminate|]. destruct (o_pspec0 _ _ G2) as [A C]. split; auto. intros [D|D]; [lia|auto].
    + intros i X. rewrite mget_insert in X. destruct (i =? k) eqn:E; [left; lia|right; auto].
    + intros k2 q i x G2 T2 N2. rewrite mget_remove in G2. destruct (k2 =? k) eqn:E; [discriminate|]. eapply o_names0; eauto.
    + destruct o_retx0 as [A C]. split; auto. intros x I. destruct (C x I) as (q & GQ & SQ). rewrite mget_remove. destruct (x =? k) eqn:E; [|eauto]. apply N.eqb_eq in E. subst. congruence.
  - destruct FP. constructor; cbn [fs_recv fs_next fs_pend fs_retx wNext]; rewrite ?R, ?PE, ?RX.
    + intros k2 q2 GX. cbn [fs_pend wNext] in GX. rewrite PE, mget_remove in GX. destruct (k2 =? k) eqn:E; [discriminate|].
      destruct (q_kinds0 k2 q2 GX) as [X|[X|(v2 & d2 & m2 & X)]]; auto. right. right. exists v2, d2, m2. cbn [fs_vals wNext]. rewrite VS.
      rewrite replace_nth_other; auto; [|now apply nth_lt in HV]. intros ->. rewrite HV in X. injection X as _ X _.
      assert (k2 = k) by (eapply (k_uidu _ _ K); [exact G|exact GX|auto]). lia.
    + intros k2 q2 GX SX. rewrite mget_remove in GX. destruct (k2 =? k) eqn:E; [discriminate|]. exact (q_retx0 k2 q2 GX SX).
    + intros i Li. rewrite mget_remove. destruct (i =? k) eqn:E; [left; left; lia|]. destruct (q_cover0 i Li) as [X|[X|[]]]; [left; now right|auto].
Qed.
Lemma valid_step : forall n used hs v d u m now s, strict hs -> inv used s -> fs_this s = true -> window_after o n (fs_cwnd s) (fs_ssth s) -> windows_ok o (S n) ->
  (exists z, f2i (fo_initCwnd o) = Ok z) -> nth_error (fs_vals s) v = Some (Some (d, u, m)) ->
  stepped n used (fs_validated conv dconv o hs d u m now (wVals (replace_nth v None (fs_vals s)) s)).
Proof.
  intros n used hs v d u m now s S1 (K & KD & PH & LR & BU) TH W WO FZ HV. destruct (k_val _ _ K _ _ _ _ HV) as (k & p & G & U & T & Q & VG). subst u.
  destruct VG as (FN & j & SG & JF & J1 & J0). destruct (segno_last _ _ SG) as (c & NL & IK & TK). destruct (filter_uid _ _ _ _ K G) as [rest FU].
  destruct (final_kind _ FN) as (fc & MF & FK & FT).
  assert (NB : mget j (fs_buf s) = None).
  { destruct (mget j (fs_buf s)) as [x|] eqn:E; auto. exfalso. destruct PH as [P|[P _]]; [rewrite (z_buf _ P) in E; discriminate|].
    rewrite (J1 (o_recv _ P)) in E. destruct (o_pspec _ P _ _ G) as [_ X]. apply X. apply (o_bspec _ P). congruence. }
  rewrite (validated_eq hs d (ps_uid p) m now _ c j k p rest (c_val (d_content d))); auto.
  2:{ cbn. rewrite (k_infl _ _ K). lia. }
  2:{ unfold vbuf. cbn [fs_buf wVals]. now rewrite NB. }
  rewrite quiet_fire by auto. set (s1 := wLog _ _).
  assert (NIN : ~ In j (fs_recv s)). { destruct PH as [P|[P _]]; [rewrite (z_recv _ P); auto|]. rewrite (J1 (o_recv _ P)). now destruct (o_pspec _ P _ _ G). }
  assert (RC : fs_recv s1 = j :: fs_recv s).
  { cbn. unfold sinsert. destruct (existsb (N.eqb j) (fs_recv s)) eqn:E; auto. apply existsb_eqb in E. contradiction. }
  assert (A : fs_nseg s1 = fs_nseg s /\ fs_nrecv s1 = (fs_nrecv s + 1)%Z /\ fs_pend s1 = mremove k (fs_pend s) /\ fs_buf s1 = minsert j (c_val (d_content d)) (fs_buf s) /\
    fs_retx s1 = fs_retx s /\ fs_next s1 = fs_next s /\ fs_reqs s1 = fs_reqs s /\ fs_vals s1 = replace_nth v None (fs_vals s) /\ fs_infl s1 = fs_infl s /\ fs_cwnd s1 = fs_cwnd s /\ fs_ssth s1 = fs_ssth s).
  { splits; reflexivity. }
  clearbody s1. destruct A as (A1 & A2 & A3 & A4 & A5 & A6 & A7 & A8 & A9 & A10 & A11).
  unfold vfinal. rewrite MF, FK, FT. cbn [negb bind].
  replace ((f + 1) mod two64) with (f + 1) by (unfold two64; rewrite N.mod_small; lia). rewrite A1.
  destruct PH as [P|[P FP]].
  - destruct (ph0_get _ _ _ P G) as (-> & E & _). assert (PE : fs_pend s1 = []) by (rewrite A3, E; reflexivity).
    assert (K1 : core used s1) by (eapply (remove_core used s s1 0 p v d m); eauto).
    rewrite (z_nseg _ P). change (toU64 0) with 0. replace (f + 1 =? 0) with false by lia.
    unfold fs_cancelExcess. cbn [fs_pend fs_infl wNseg]. rewrite PE. cbn [filter length]. replace (fs_infl s1 <? Z.of_nat 0)%Z with false by (rewrite (k_infl _ _ K1); lia). cbn [bind].
    set (s2 := wInfl _ _).
    assert (K2 : core used s2). { eapply core_ext; [exact K1|..]; try reflexivity; [now rewrite PE|]. cbn. lia. }
    assert (B : fs_recv s2 = [j] /\ fs_nseg s2 = Z.of_N (f + 1) /\ fs_nrecv s2 = 1%Z /\ fs_pend s2 = [] /\ fs_buf s2 = [(j, c_val (d_content d))] /\ fs_retx s2 = [] /\ fs_next s2 = 0 /\
      fs_cwnd s2 = fs_cwnd s /\ fs_ssth s2 = fs_ssth s).
    { unfold s2. cbn [fs_recv fs_nseg fs_nrecv fs_pend fs_buf fs_retx fs_next fs_cwnd fs_ssth wInfl wPend wNseg]. rewrite RC, A2, A4, A5, A6, (z_recv _ P), (z_nrecv _ P), (z_buf _ P), (z_retx _ P), (z_next _ P).
      splits; auto. unfold toI64. replace (f + 1 <? 2 ^ 63) with true by lia. reflexivity. }
    clearbody s2. destruct B as (B1 & B2 & B3 & B4 & B5 & B6 & B7 & B8 & B9).
    destruct (ph1_first s2 j (c_val (d_content d)) B1 B2 B3 B4 B5 B6 B7 JF) as [P2 F2]. { intro IO. apply J0; auto. apply P. }
    apply (vgo_step n used hs d j m s2 (c_val (d_content d))); auto; [|rewrite B8, B9; exact W]. rewrite B5. cbn. now rewrite N.eqb_refl.
  - assert (j = k) by (apply J1, P). subst j.
    assert (K1 : core used s1). { eapply (remove_core used s s1 k p v d m); eauto. left. split; [apply P|]. rewrite RC. discriminate. }
    rewrite (o_nseg _ P), toU64_nseg, N.eqb_refl. cbn [bind].
    destruct (ph1_more used s s1 k p v d m (c_val (d_content d))) as [P2 F2]; auto.
    apply (vgo_step n used hs d k m s1 (c_val (d_content d))); auto; [|rewrite A10, A11; exact W]. rewrite A4, mget_insert, N.eqb_refl. reflexivity.
Qed.

(* ---- all steps ---- *)
Lemma core_same : forall used used' s, core used s -> (forall id, In id used' <-> In id used) -> core used' s.
Proof.
  intros used used' s K E. destruct K. constructor; auto.
  - intros id H. apply k_used0. now apply E.
  - intros k p id G T. destruct (k_tm0 k p id G T) as (A & B & C). splits; auto. now rewrite E.
  - intros id L U. apply k_out0; auto. now rewrite <- E.
Qed.
Lemma step_ok : forall n used e s, strict (snd e) -> inv used s -> fs_this s = true -> window_after o n (fs_cwnd s) (fs_ssth s) -> windows_ok o (S n) ->
  (exists z, f2i (fo_initCwnd o) = Ok z) -> polite_ev dconv o f used (fst e) s -> stepped n (answers (fst e) s ++ used) (fs_step conv dconv o e s).
Proof.
  intros n used [e hs] s S1 I TH W WO FZ PE. cbn [fst snd] in *. unfold fs_step. cbn [fst snd].
  assert (SAME : stepped n used (Ok s)) by (exists s; split; auto; intros _; split; auto; now apply WSame).
  destruct e as [id d m|id r now|id now|v now|v|]; unfold answers; cbn [ev_req filter].
  - destruct (nth_error (fs_reqs s) id) as [nm|] eqn:NE.
    + rewrite (proj2 (Nat.ltb_lt _ _) (nth_lt _ _ _ _ NE)). cbn [app]. eapply data_step; eauto.
    + apply nth_error_None in NE. replace (Nat.ltb id (length (fs_reqs s))) with false by lia. exact SAME.
  - destruct (nth_error (fs_reqs s) id) as [nm|] eqn:NE.
    + rewrite (proj2 (Nat.ltb_lt _ _) (nth_lt _ _ _ _ NE)). cbn [app]. eapply nack_step; eauto.
    + apply nth_error_None in NE. replace (Nat.ltb id (length (fs_reqs s))) with false by lia. exact SAME.
  - destruct (has_timer id s) eqn:HT.
    + pose proof I as I2. destruct I2 as (K & _). destruct (has_timer_get id s (k_sorted _ _ K) HT) as (k & p & G & T). destruct (k_tm _ _ K _ _ _ G T) as (L & _).
      destruct (nth_error (fs_reqs s) id) as [nm|] eqn:NE; [|apply nth_error_None in NE; lia].
      replace (Nat.ltb id (length (fs_reqs s))) with true by lia. cbn [app]. eapply timer_step; eauto.
    + destruct (Nat.ltb id (length (fs_reqs s))) eqn:L; [|exact SAME]. cbn [app]. exists s. split; auto. intros _. split; [|now apply WSame]. destruct I as (K & KD & I3).
      split; [|auto]. eapply core_same; [exact K|]. intro x. split; [|now right]. intros [<-|X]; auto.
      destruct (in_dec Nat.eq_dec id used) as [X|X]; auto. exfalso. destruct (k_out _ _ K id) as (k & p & G & T); [lia|auto|]. eapply has_timer_none; eauto.
  - cbn [app]. destruct (nth_error (fs_vals s) v) as [[[[d u] m]|]|] eqn:HV; try exact SAME. eapply valid_step; eauto.
  - cbn [app]. destruct (nth_error (fs_vals s) v) as [[[[d u] m]|]|] eqn:HV; try exact SAME. apply stepped_stop. unfold fs_invalid. cbn [fs_this wVals]. rewrite TH. cbn [negb].
    unfold fs_error. apply stop_this.
  - apply stepped_stop, stop_this.
Qed.
Lemma windows_less : forall n k, windows_ok o (n + k) -> windows_ok o n.
Proof. intros n k. induction k as [|k IH]; [now rewrite Nat.add_0_r|]. intro H. apply IH. intros w t A. apply (H w t). replace (n + S k)%nat with (S (n + k)) by lia. now apply WSame. Qed.
Lemma run_ok : forall l n used s, Forall (fun e => strict (snd e)) l -> inv used s -> fs_this s = true -> window_after o n (fs_cwnd s) (fs_ssth s) ->
  windows_ok o (n + length l) -> (exists z, f2i (fo_initCwnd o) = Ok z) -> polite conv dconv o f used l s ->
  exists s' used', fs_run conv dconv o l s = Ok s' /\ (fs_this s' = true -> inv used' s') /\ forall id, In id used' <-> In id (answered conv dconv o l s) \/ In id used.
Proof.
  induction l as [|e l IH]; intros n used s F I TH W WO FZ PL; cbn [fs_run answered].
  - exists s, used. splits; auto. cbn. tauto.
  - inversion F; subst. cbn [polite] in PL. destruct PL as [PE PL].
    destruct (step_ok n used e s) as (s1 & E1 & N1); auto. { apply (windows_less (S n) (length l)). replace (S n + length l)%nat with (n + length (e :: l))%nat by (cbn; lia). exact WO. }
    rewrite E1 in *. cbn [bind]. destruct (fs_this s1) eqn:T1.
    + destruct (N1 eq_refl) as [I1 W1]. destruct (IH (S n) _ s1 H2 I1 T1 W1) as (s' & used' & E' & A' & B'); auto.
      { replace (S n + length l)%nat with (n + length (e :: l))%nat by (cbn; lia). exact WO. }
      exists s', used'. splits; auto. intro id. rewrite B', !in_app_iff. tauto.
    + destruct (run_stopped conv dconv o l s1 T1) as (s' & E' & T' & _).
      exists s', ((answered conv dconv o l s1 ++ answers (fst e) s) ++ used). splits; auto; [congruence|]. intro id. rewrite !in_app_iff. tauto.
Qed.
Lemma start_ok : forall base now s, name_segno dconv base = None -> fs_start dconv o base now = Ok s -> inv [] s /\ fs_this s = true /\ fs_cwnd s = fo_initCwnd o /\ fs_ssth s = fo_initSsthresh o.
Proof.
  intros base now s B H. unfold fs_start in H. destruct (fopts_ok o); [|discriminate]. unfold fs_first in H. set (s0 := mkFs _ _ _ _ _ _ _ _ _ _ _ _ _ _ _ _ _ _ _ _) in H.
  assert (K0 : core [] s0). { constructor; cbn; auto; try discriminate; try tauto; try lia; try (unfold ksorted; constructor). - intros v d u m X; destruct v; discriminate. - intros v v0 d u m d0 m0 X; destruct v; discriminate. }
  match type of H with fs_send 0 base true ?b false s0 = _ => destruct (send_core [] 0 base true b false s0 K0) as (s3 & p3 & E3 & K3 & Pe & Re & T3 & S3 & R1 & R2 & R3 & R4 & R5 & R6 & R7 & R8 & R9 & R10 & R11 & R12) end; [reflexivity|].
  rewrite E3 in H. injection H as <-. assert (PE : fs_pend s3 = [(0, p3)]) by (rewrite Pe; reflexivity).
  splits; auto. unfold inv. splits; [exact K3| |left|rewrite R1; cbn; lia|intros _; left; rewrite R12; cbn; lia].
  { intros k q G. rewrite PE in G. cbn in G. destruct (k =? 0); [|discriminate]. injection G as <-. left. congruence. }
  constructor; rewrite ?R1, ?R2, ?R3, ?R4, ?R5, ?R6; auto.
  - exists p3. auto.
  - intros id n X. rewrite Re in X. cbn in X. destruct id as [|[|id]]; try discriminate. injection X as <-. exact B.
Qed.

(* ---- the number of requests outstanding ---- *)
Fixpoint tids (m : list (N * pseg)) : list nat := match m with [] => [] | (_, p) :: m' => match ps_timer p with Some t => t :: tids m' | None => tids m' end end.
Lemma tids_cnt : forall m, length (tids m) = cnt m.
Proof. induction m as [|[k p] m IH]; cbn; auto. unfold tflag. destruct (ps_timer p); cbn; lia. Qed.
Lemma tids_in : forall m id, ksorted m -> (In id (tids m) <-> exists k p, mget k m = Some p /\ ps_timer p = Some id).
Proof.
  intros m id S1. assert (A : In id (tids m) <-> exists k p, In (k, p) m /\ ps_timer p = Some id).
  { clear S1. induction m as [|[k p] m IH]; cbn; [split; [tauto|intros (k & p & [] & _)]|]. destruct (ps_timer p) as [t|] eqn:T; cbn; rewrite IH.
    - split; [intros [<-|(k' & p' & X & Y)]; eauto 6|]. intros (k' & p' & [X|X] & Y); [injection X as -> ->; left; congruence|right; eauto].
    - split; [intros (k' & p' & X & Y); eauto 6|]. intros (k' & p' & [X|X] & Y); [injection X as -> ->; congruence|eauto]. }
  rewrite A. split; intros (k & p & X & Y); exists k, p; split; auto; now apply mget_in.
Qed.
Lemma tids_nodup : forall m, ksorted m -> (forall k k' p p' id, mget k m = Some p -> mget k' m = Some p' -> ps_timer p = Some id -> ps_timer p' = Some id -> k' = k) -> NoDup (tids m).
Proof.
  induction m as [|[k p] m IH]; intros S1 U; cbn; [constructor|]. inversion S1 as [|a b S2 F]; subst.
  assert (LT : forall k' p', mget k' m = Some p' -> k < k').
  { intros k' p' G. apply mget_in in G; auto. rewrite Forall_forall in F. apply (F _ G). }
  assert (ND : NoDup (tids m)).
  { apply IH; auto. intros k1 k2 p1 p2 id G1 G2 T1 T2. pose proof (LT _ _ G1). pose proof (LT _ _ G2).
    eapply (U k1 k2 p1 p2 id); auto; cbn; [replace (k1 =? k) with false by lia|replace (k2 =? k) with false by lia]; auto. }
  destruct (ps_timer p) as [t|] eqn:T; auto. constructor; auto. intro I. apply tids_in in I as (k' & p' & G & T'); auto. pose proof (LT _ _ G).
  assert (k' = k); [|lia]. eapply (U k k' p p' t); auto; cbn; [now rewrite N.eqb_refl|]. replace (k' =? k) with false by lia. exact G.
Qed.
Lemma core_outstanding : forall used used' s, core used s -> (forall id, In id used' <-> In id used) -> fs_infl s = Z.of_nat (outstanding used' s).
Proof.
  intros used used' s K E. rewrite (k_infl _ _ K), <- tids_cnt. f_equal. unfold outstanding. apply Permutation_length, NoDup_Permutation.
  - apply tids_nodup; [apply K|]. intros. eapply (k_un _ _ K); eauto.
  - apply NoDup_filter, seq_NoDup.
  - intro id. rewrite (tids_in _ _ (k_sorted _ _ K)), filter_In, in_seq.
    assert (X : negb (existsb (Nat.eqb id) used') = true <-> ~ In id used).
    { rewrite <- E. split.
      - intros H I. apply Bool.negb_true_iff in H. assert (Y : existsb (Nat.eqb id) used' = true); [|congruence]. apply existsb_exists. exists id. split; auto. apply Nat.eqb_refl.
      - intro H. apply Bool.negb_true_iff. destruct (existsb (Nat.eqb id) used') eqn:Y; auto. apply existsb_exists in Y as (x & I & Q). apply Nat.eqb_eq in Q. subst. contradiction. }
    rewrite X. split.
    + intros (k & p & G & T). destruct (k_tm _ _ K _ _ _ G T) as (A & B & _). split; [lia|auto].
    + intros [A B]. apply (k_out _ _ K); [lia|auto].
Qed.
End D.

(* ---- the validated segments are the received ones ---- *)
Section V.
Variables (conv dconv : convention) (o : fopts).
Definition pres (s s' : fetcher) : Prop := fs_recv s' = fs_recv s /\ validated (fs_log s') = validated (fs_log s).
Definition vr (s : fetcher) : Prop := forall d i, In d (validated (fs_log s)) -> segno dconv d = Some i -> In i (fs_recv s).
Lemma pres_trans : forall a b c, pres a b -> pres b c -> pres a c.
Proof. intros a b c [A1 A2] [B1 B2]. split; congruence. Qed.
Lemma pres_refl : forall s, pres s s.
Proof. now split. Qed.
Lemma pres_vr : forall s s', pres s s' -> vr s -> vr s'.
Proof. unfold vr. intros s s' [A B] H. rewrite A, B. exact H. Qed.
Lemma vapp : forall a b, validated (a ++ b) = validated a ++ validated b.
Proof. induction a as [|[] a IH]; intros; cbn; auto. now rewrite IH. Qed.
Lemma pres_quiet : forall s s', quiet s s' -> pres s s'.
Proof.
  intros s s' (_ & R & _ & _ & _ & _ & l & L & F). split; auto. rewrite L, vapp. replace (validated l) with (@nil data); [apply app_nil_r|].
  clear L. induction F as [|x l Hx F IH]; auto. destruct x; try destruct Hx. exact IH.
Qed.
Lemma pres_stop : forall s, pres s (fs_stop s).
Proof. intro s. unfold fs_stop. destruct (fs_this s); [|apply pres_refl]. split; auto. cbn. rewrite vapp. apply app_nil_r. Qed.
Lemma pres_fire : forall hs ob s, match ob with OValidated _ => False | _ => True end -> pres s (fs_fire hs ob s).
Proof.
  intros hs ob s H. unfold fs_fire. assert (A : pres s (wLog (fs_log s ++ [ob]) s)). { split; auto. cbn. rewrite vapp. destruct ob; cbn; try apply app_nil_r. destruct H. }
  destruct (hs ob); auto. eapply pres_trans; [exact A|apply pres_stop].
Qed.
Lemma pres_error : forall hs c s, pres s (fs_error hs c s).
Proof. intros. unfold fs_error. eapply pres_trans; [|apply pres_stop]. now apply pres_fire. Qed.
Lemma pres_window : forall hs s s', fs_window conv o hs s = Ok s' -> pres s s'.
Proof.
  intros hs s s' H. apply window_cases in H as [(Q & _)|(_ & _ & t & (s1 & Q & _ & _ & ->) & T)]; [now apply pres_quiet|].
  eapply pres_trans; [apply pres_quiet; exact Q|]. eapply pres_trans; [|apply pres_stop]. apply pres_fire. destruct T as [[_ ->]|[_ ->]]; exact I.
Qed.
Lemma pres_same : forall s s', fs_recv s' = fs_recv s -> fs_log s' = fs_log s -> pres s s'.
Proof. intros s s' A B. split; congruence. Qed.
Lemma pres_retry : forall hs n now s s', fs_retry conv dconv o hs n now s = Ok s' -> pres s s'.
Proof.
  intros hs n now s s' H. unfold fs_retry in H. destruct (_ <=? now)%Z; [injection H as <-; apply pres_error|].
  destruct (fs_pend s) as [|f l] eqn:P; [discriminate|].
  match type of H with bind ?X _ = _ => destruct X as [kp|] end; cbn [bind] in H; [|discriminate].
  match type of H with context [fs_recv (wPend ?X s)] => set (s1 := wPend X s) in * end.
  assert (I1 : pres s s1) by (apply pres_same; auto). eapply pres_trans; [exact I1|]. destruct (fs_recv s1).
  - unfold fs_first in H. apply quiet_send in H as (Q & _). now apply pres_quiet.
  - destruct (fs_winDec o s1) as [s2|] eqn:W; cbn [bind] in H; [|discriminate]. apply quiet_winDec in W as (Q & _).
    eapply pres_trans; [apply pres_quiet; exact Q|]. apply pres_window in H. exact H.
Qed.
Lemma pres_deliver : forall hs fuel s s', fs_deliver hs fuel s = Ok s' -> pres s s'.
Proof.
  intros hs. induction fuel as [|k IH]; intros s s' H; cbn [fs_deliver] in H; [discriminate|].
  match type of H with context [fs_fire hs (OInOrder ?v) s] => assert (A : pres s (fs_fire hs (OInOrder v) s)) by now apply pres_fire end.
  match type of H with (match mget _ (fs_buf ?X) with _ => _ end) = _ => set (s1 := X) in * end.
  assert (B : pres s s1) by (eapply pres_trans; [exact A|apply pres_same; reflexivity]).
  destruct (mget (fs_nextOrd s1) (fs_buf s1)); [|injection H as <-; exact B]. eapply pres_trans; [exact B|]. now apply IH.
Qed.
Lemma vr_validated : forall hs d u m now s s', vr s -> fs_validated conv dconv o hs d u m now s = Ok s' -> vr s'.
Proof.
  intros hs d u m now s s' I H. destruct (fs_this s) eqn:T. 2:{ unfold fs_validated in H. rewrite T in H. cbn in H. injection H as <-. exact I. }
  destruct (validated_split conv dconv o hs d u m now s s' T H) as (c & cur & k & p & rest & v & r & NL & TK & FU & VB & VF & R).
  set (s1 := fs_fire hs (OValidated d) (vstart cur now v k s)) in *.
  assert (I1 : vr s1).
  { assert (A : vr (wLog (fs_log s ++ [OValidated d]) (vstart cur now v k s))).
    { intros d' i X Y. cbn in X. rewrite vapp in X. cbn [fs_recv wLog vstart wBuf wPend wNrecv]. apply in_sinsert. apply in_app_or in X as [X|[<-|[]]]; [right; eauto|left].
      unfold segno in Y. unfold nm_last in NL. destruct (rev _) as [|c' r']; [discriminate|]. injection NL as ->. rewrite TK in Y. destruct (isKind _ _ _); [|discriminate]. congruence. }
    unfold s1, fs_fire. destruct (hs (OValidated d)); [|exact A]. eapply pres_vr; [apply pres_stop|exact A]. }
  clearbody s1. destruct r as [s2|s2].
  { subst s2. unfold vfinal in VF. destruct (mi_final (d_meta d)) as [f|]; [|discriminate]. destruct (negb _); [|destruct (toKind _ _ f); [|discriminate]; cbn [bind] in VF; destruct (_ =? _); [discriminate|]; destruct (fs_cancelExcess _); discriminate].
    injection VF as <-. eapply pres_vr; [apply pres_error|exact I1]. }
  assert (I2 : pres s1 s2).
  { unfold vfinal in VF. destruct (mi_final (d_meta d)) as [f|]; [|injection VF as <-; apply pres_refl]. destruct (negb _); [discriminate|].
    destruct (toKind _ _ f); [|discriminate]. cbn [bind] in VF. destruct (_ =? _); [injection VF as <-; apply pres_refl|].
    destruct (fs_cancelExcess _) as [x|] eqn:X; cbn [bind] in VF; [|discriminate]. injection VF as <-. apply quiet_excess in X as (Q & _). apply pres_quiet in Q. exact Q. }
  apply (pres_vr _ _ I2) in I1. clear VF I2. unfold vgo in R.
  destruct (if fo_inOrder o && _ then _ else _) as [s3|] eqn:E3; cbn [bind] in R; [|discriminate].
  match type of R with context [fs_highData ?X] => set (s4 := X) in * end.
  match type of R with context [if _ then fs_winDec o ?X else _] => set (s5 := X) in * end.
  destruct (if m && _ then _ else _) as [s6|] eqn:E6; cbn [bind] in R; [|discriminate].
  assert (Q3 : pres s2 s3) by (destruct (_ && _); [eapply pres_deliver; eauto|injection E3 as <-; apply pres_refl]).
  assert (Q4 : pres s3 s4). { unfold s4. destruct (fs_recv s3) as [|x [|]]; try apply pres_refl. destruct (cur =? 0); apply pres_same; auto. }
  assert (Q5 : pres s4 s5). { unfold s5. destruct (_ <? _); [apply pres_same; auto|apply pres_refl]. }
  assert (Q6 : pres s5 s6). { apply pres_quiet. destruct (m && _); [apply quiet_winDec in E6 as (Q & _)|apply quiet_winInc in E6 as (Q & _)]; auto. }
  apply pres_window in R. eapply pres_vr; [exact R|]. eapply pres_vr; [exact Q6|]. eapply pres_vr; [exact Q5|]. eapply pres_vr; [exact Q4|]. eapply pres_vr; [exact Q3|exact I1].
Qed.
Lemma vr_step : forall e s s', vr s -> fs_step conv dconv o e s = Ok s' -> vr s'.
Proof.
  intros [e hs] s s' V H. unfold fs_step in H. cbn [fst snd] in H. destruct e as [id d m|id r now|id now|v now|v|].
  - destruct (nth_error (fs_reqs s) id); [|injection H as <-; exact V]. eapply pres_vr; [|exact V]. unfold fs_data in H.
    destruct (negb (fs_this s)); [injection H as <-; apply pres_refl|]. destruct (_ <=? _)%Z; [discriminate|]. destruct (nm_last (d_name d)) as [c|]; [|discriminate].
    destruct (negb _). { injection H as <-. eapply pres_trans; [|apply pres_error]. apply pres_same; auto. }
    destruct (toKind dconv KSegment c) as [cur|]; cbn [bind] in H; [|discriminate].
    match type of H with (match ?X with Some _ => _ | None => _ end) = _ => destruct X as [[k p]|] end; injection H as <-; [|apply pres_same; auto].
    match goal with |- context [fs_fire hs _ ?X] => set (s2 := X) in * end. eapply pres_trans; [|apply pres_same; reflexivity].
    apply pres_trans with s2; [apply pres_same; reflexivity|now apply pres_fire].
  - destruct (nth_error (fs_reqs s) id) as [n|]; [|injection H as <-; exact V]. eapply pres_vr; [|exact V]. unfold fs_nack in H.
    destruct (negb (fs_this s)); [injection H as <-; apply pres_refl|]. destruct (_ <=? _)%Z; [discriminate|].
    apply pres_trans with (fs_fire hs ONacked s); [now apply pres_fire|]. destruct (_ || _); [apply pres_retry in H; exact H|]. injection H as <-.
    eapply pres_trans; [|apply pres_error]. apply pres_same; auto.
  - destruct (has_timer id s); [|injection H as <-; exact V]. destruct (nth_error (fs_reqs s) id) as [n|]; [|injection H as <-; exact V]. eapply pres_vr; [|exact V].
    apply pres_trans with (wPend (map (clear_timer id) (fs_pend s)) s); [apply pres_same; auto|]. set (s0 := wPend _ s) in *. unfold fs_timeout in H.
    destruct (negb (fs_this s0)); [injection H as <-; apply pres_refl|]. destruct (_ <=? _)%Z; [discriminate|].
    apply pres_trans with (fs_fire hs OTimedOut s0); [now apply pres_fire|]. apply pres_retry in H. exact H.
  - destruct (nth_error (fs_vals s) v) as [[[[d uid] m]|]|] eqn:NE; try (injection H as <-; exact V). eapply vr_validated; [|exact H]. exact V.
  - destruct (nth_error (fs_vals s) v) as [[[[d uid] m]|]|] eqn:NE; try (injection H as <-; exact V). injection H as <-. eapply pres_vr; [|exact V]. unfold fs_invalid.
    destruct (negb _); [apply pres_same; auto|]. eapply pres_trans; [|apply pres_error]. apply pres_same; auto.
  - injection H as <-. eapply pres_vr; [apply pres_stop|exact V].
Qed.
Lemma vr_run : forall l s s', vr s -> fs_run conv dconv o l s = Ok s' -> vr s'.
Proof.
  induction l as [|e l IH]; intros s s' V H; cbn [fs_run] in H; [injection H as <-; exact V|]. destruct (fs_step conv dconv o e s) as [s1|] eqn:E; cbn [bind] in H; [|discriminate].
  eapply IH; [|exact H]. eapply vr_step; eauto.
Qed.
Lemma vr_start : forall base now s, fs_start dconv o base now = Ok s -> vr s.
Proof.
  intros base now s H. unfold fs_start in H. destruct (fopts_ok o); [|discriminate]. unfold fs_first in H. apply quiet_send in H as (Q & _). eapply pres_vr; [apply pres_quiet; exact Q|].
  intros d i [].
Qed.
End V.

(* ---- all together ---- *)
Lemma fetch_bookkeeping : forall conv dconv o f base now l, can_decode dconv conv = true -> f < 2 ^ 62 -> fopts_ok o = true -> name_segno dconv base = None ->
  windows_ok o (length l) -> Forall (fun e => strict (snd e)) l ->
  (forall s0, fs_start dconv o base now = Ok s0 -> polite conv dconv o f [] l s0) ->
  exists s0 s, fs_start dconv o base now = Ok s0 /\ fs_fetch conv dconv o base now l = Ok s /\
    (fs_this s = true -> fs_infl s = Z.of_nat (outstanding (answered conv dconv o l s0) s) /\
       (exists i, i <= f /\ forall d, In d (validated (fs_log s)) -> segno dconv d <> Some i) /\
       (roomy o f -> busy s)).
Proof.
  intros conv dconv o f base now l CD Hf FO B WO ST PL.
  assert (E0 : exists s0, fs_start dconv o base now = Ok s0). { unfold fs_start. rewrite FO. unfold fs_first, fs_send. cbn. eauto. }
  destruct E0 as [s0 E0]. destruct (start_ok conv dconv o f Hf base now s0 B E0) as (I0 & T0 & C0 & H0).
  destruct (WO (fo_initCwnd o) (fo_initSsthresh o)) as (z & FZ & _). { clear. induction (length l) as [|n IH]; [apply WStart|now apply WSame]. }
  destruct (run_ok conv dconv o f CD Hf l 0 [] s0 ST I0 T0) as (s & used & E & A & U); auto. { rewrite C0, H0. apply WStart. } { eauto. }
  exists s0, s. unfold fs_fetch. rewrite E0. cbn [bind]. splits; auto. intro TS. destruct (A TS) as (K & _ & _ & LR & BU). splits; auto.
  - eapply (core_outstanding conv dconv o f Hf used); [exact K|]. intro id. rewrite U. cbn. tauto.
  - destruct (missing_one conv dconv f Hf (fs_recv s) (f + 1)) as (i & Li & NI); [lia|]. exists i. split; [lia|]. intros d I SG. apply NI.
    eapply (vr_run conv dconv o l s0 s); eauto. eapply vr_start; eauto.
Qed.

(* deciding politeness of concrete histories, for the examples *)
Definition polite_evb (dconv : convention) (o : fopts) (f : N) (used : list nat) (e : fev) (s : fetcher) : bool :=
  match e with
  | FData id d _ => negb (existsb (Nat.eqb id) used) &&
      match nth_error (fs_reqs s) id with
      | Some n => match finalno dconv d, segno dconv d with
                  | Some g, Some k => (g =? f) && (k <=? f) && match name_segno dconv n with Some j => k =? j | None => negb (fo_inOrder o) || (k =? 0) end
                  | _, _ => false end
      | None => true end
  | FNack id _ _ => negb (existsb (Nat.eqb id) used)
  | _ => true
  end.
Fixpoint politeb (conv dconv : convention) (o : fopts) (f : N) (used : list nat) (l : list (fev * (fobs -> bool))) (s : fetcher) : bool :=
  match l with
  | [] => true
  | e :: l' => polite_evb dconv o f used (fst e) s &&
      match fs_step conv dconv o e s with Ok s' => politeb conv dconv o f (answers (fst e) s ++ used) l' s' | Err _ => true end
  end.
Lemma politeb_ok : forall conv dconv o f l used s, politeb conv dconv o f used l s = true -> polite conv dconv o f used l s.
Proof.
  assert (NI : forall id used, negb (existsb (Nat.eqb id) used) = true -> ~ In id used).
  { intros id used H I. apply Bool.negb_true_iff in H. assert (X : existsb (Nat.eqb id) used = true); [|congruence]. apply existsb_exists. exists id. split; auto. apply Nat.eqb_refl. }
  intros conv dconv o f. induction l as [|e l IH]; intros used s H; cbn [polite politeb] in *; auto. apply andb_prop in H as [H1 H2]. split.
  - unfold polite_ev, polite_evb in *. destruct (fst e) as [id d m|id r now| | | |]; auto. apply andb_prop in H1 as [A B]. split; auto. intros n E. rewrite E in B.
    destruct (finalno dconv d) as [g|]; [|discriminate]. destruct (segno dconv d) as [k|]; [|discriminate]. apply andb_prop in B as [B C]. apply andb_prop in B as [B D].
    split; [f_equal; lia|]. exists k. splits; auto; try lia.
    + intros j J. rewrite J in C. lia.
    + intros J IO. rewrite J, IO in C. cbn in C. lia.
  - destruct (fs_step conv dconv o e s); auto.
Qed.

(* Proofs about M_Transport: pausing, closing *)
From Coq Require Import Lia ZifyBool ZifyNat ZifyN.
From Verif Require Import Base BaseLemmas M_Tlv P_Tlv S_Tlv M_Block P_Block M_Transport S_Transport P_Transport P_TransportR P_TransportT.

Lemma nth_nil : forall {A} k, nth_error (@nil A) k = None.
Proof. intros A [|k]; reflexivity. Qed.
Ltac noop E := injection E as <- <-.

(* ---- a queue without a write operation is never written ---- *)
Definition Stuck (w0 : bytes) (s : tr) : Prop :=
  written (t_log s) = w0 /\ t_wrs s = [] /\ t_conn s = CoNone /\
  ((t_impl s = true /\ t_open s = true /\ t_q s <> [] /\ (t_st s = RUNNING \/ t_st s = PAUSED)) \/
   (t_impl s = false /\ t_st s = CLOSED)).
Lemma written_say : forall x l, mute x \/ (exists w, x = LSend w) -> written (l ++ [x]) = written l.
Proof. intros x l H. rewrite written_app. destruct x; cbn; rewrite ?app_nil_r; auto. destruct H as [[]|[w0 H]]; discriminate. Qed.
Lemma Stuck_say : forall w0 x s, mute x -> Stuck w0 s -> Stuck w0 (say x s).
Proof.
  intros w0 x s M (H1 & H2). split; [|exact H2]. cbn. rewrite written_say; auto.
Qed.
Lemma Stuck_close : forall w0 s s' r, Stuck w0 s -> trClose s = (s', r) -> Stuck w0 s'.
Proof.
  intros w0 s s' r H E. unfold trClose in E. destruct (t_impl s) eqn:I; noop E; auto.
  destruct H as (H1 & H2 & H3 & H4). unfold Stuck. cbn. rewrite H2, H3, written_say by (left; exact Logic.I). cbn. splits; auto.
Qed.
Lemma Stuck_fail : forall w0 s s' r, Stuck w0 s -> failWith s = (s', r) -> Stuck w0 s'.
Proof.
  intros w0 s s' r H E. unfold failWith in E. destruct (trClose s) as [s1 o] eqn:T. apply (Stuck_close w0) in T; auto.
  destruct o; noop E; auto.
Qed.
Lemma Stuck_call : forall w0 s c s' r, Stuck w0 s -> do_call s c = (s', r) -> Stuck w0 s'.
Proof.
  intros w0 s c s' r H E. destruct c; cbn [do_call] in E.
  - destruct (t_impl s) eqn:I; cbn [negb] in E; [|noop E; auto].
    destruct H as (H1 & H2 & H3 & [(H4 & H5 & H6 & H7)|(H4 & _)]); [|congruence].
    assert (L : (length (t_q (set_q (t_q s ++ [w]) (say (LSend w) s))) =? 1)%nat = false).
    { cbn. destruct (t_q s); [congruence|]. cbn. rewrite app_length. cbn. lia. }
    rewrite L in E. destruct (t_st s) eqn:Es; noop E; destruct H7; try discriminate;
     (unfold Stuck; cbn; rewrite written_say by eauto; splits; auto; left; splits; auto; destruct (t_q s); discriminate).
  - destruct (t_impl s) eqn:I; cbn [negb] in E; [|noop E; auto].
    destruct (t_st s) eqn:Es; try (noop E; now apply Stuck_say).
    destruct (t_open s) eqn:O; noop E; auto.
    destruct H as (H1 & H2 & H3 & [(H4 & H5 & H6 & H7)|(H4 & _)]); [|congruence].
    unfold Stuck. cbn. rewrite H2, H3, written_say by (left; exact Logic.I). cbn. splits; auto. left. splits; auto.
  - destruct (t_impl s) eqn:I; [|noop E; auto]. noop E. apply (Stuck_say w0 LResume) in H; [|exact Logic.I].
    unfold implResume. destruct (t_st (say LResume s)) eqn:Es; auto.
    destruct H as (H1 & H2 & H3 & [(H4 & H5 & H6 & H7)|(H4 & H5)]); [|congruence].
    unfold Stuck, asyncReceive. cbn. cbn in *. splits; auto. left; splits; auto.
  - eapply Stuck_close; eauto.
  - noop E; auto.
Qed.

Section Cb.
Variable cb : list tlog -> list call.

Lemma Stuck_step : forall w0 s e s' r, Stuck w0 s -> tstep cb s e = (s', r) -> Stuck w0 s'.
Proof.
  intros w0 s e s' r H E. assert (Hs := H). destruct H as (H1 & H2 & H3 & H4).
  destruct e; cbn [tstep] in E; rewrite ?H2, ?H3, ?nth_nil in E; try (noop E; exact Hs).
  - eapply Stuck_call; eauto.
  - destruct (t_tm s); noop E; exact Hs.
  - destruct (t_tm s); try (noop E; exact Hs). eapply Stuck_fail; [|exact E]. exact Hs.
  - destruct (nth_error (t_rds s) k) as [[off [| |]]|]; try (noop E; exact Hs).
    destruct (_ && _); noop E; [|exact Hs]. apply Stuck_say; [exact Logic.I|exact Hs].
  - destruct (nth_error (t_rds s) k) as [[off [| |]]|]; noop E; exact Hs.
  - destruct (nth_error (t_rds s) k) as [[off x]|]; [|noop E; exact Hs].
    destruct x; [noop E; exact Hs|..];
     (apply (ladder_read cb (Stuck w0)) in E as [E|[(s0 & E & -> & _)|(s0 & E & F)]]; auto;
      [eapply Stuck_fail; [exact E|exact F]|intros; apply Stuck_say; [exact Logic.I|auto]|intros; eapply Stuck_call; eauto]).
Qed.
Lemma Stuck_run : forall w0 evs s s' r, Stuck w0 s -> trun cb s evs = (s', r) -> Stuck w0 s'.
Proof.
  intros w0. induction evs as [|e evs IH]; intros s s' r H E; cbn in E; [noop E; auto|].
  destruct (tstep cb s e) as [s1 o] eqn:T. eapply Stuck_step in T; eauto.
  destruct o as [x|]; eauto. destruct (catchable x); [|noop E; auto]. eapply IH; [|exact E]. apply Stuck_say; [exact Logic.I|auto].
Qed.

(* ---- paused without a receive operation: no callback ---- *)
Definition Quiet (d0 : list elem) (s : tr) : Prop :=
  delivered (t_log s) = d0 /\ t_rds s = [] /\ t_conn s = CoNone /\ t_st s <> RUNNING.
Definition silent (x : tlog) : Prop := match x with LDeliver _ => False | _ => True end.
Lemma delivered_say : forall x l, silent x -> delivered (l ++ [x]) = delivered l.
Proof. intros x l H. rewrite delivered_app. destruct x; cbn; rewrite ?app_nil_r; auto. destruct H. Qed.
Lemma Quiet_say : forall d0 x s, silent x -> Quiet d0 s -> Quiet d0 (say x s).
Proof. intros d0 x s M (H1 & H2). split; [|exact H2]. cbn. rewrite delivered_say; auto. Qed.
Lemma Quiet_fail : forall d0 s s' r, Quiet d0 s -> failWith s = (s', r) -> Quiet d0 s'.
Proof.
  intros d0 s s' r (H1 & H2 & H3 & H4) E. unfold failWith, trClose in E. destruct (t_impl s); noop E; [|splits; auto].
  - unfold Quiet. cbn. rewrite H2, H3, delivered_say by exact Logic.I. cbn. splits; auto. discriminate.
  - unfold Quiet; splits; auto.
Qed.
Lemma Quiet_write : forall d0 s s' r, Quiet d0 s -> asyncWrite s = (s', r) -> Quiet d0 s'.
Proof. intros d0 s s' r H E. unfold asyncWrite in E. destruct (t_q s); noop E; exact H. Qed.
Lemma Quiet_step : forall d0 s e s' r, Quiet d0 s -> ~ is_call CResume e -> tstep cb s e = (s', r) -> Quiet d0 s'.
Proof.
  intros d0 s e s' r Hs N E. assert (H := Hs). destruct H as (H1 & H2 & H3 & H4).
  destruct e; cbn [tstep] in E; rewrite ?H2, ?H3, ?nth_nil in E; try (noop E; exact Hs).
  - destruct c; cbn [do_call] in E.
    + destruct (negb (t_impl s)); [noop E; exact Hs|].
      assert (Q1 : Quiet d0 (set_q (t_q s ++ [w]) (say (LSend w) s))) by (apply (Quiet_say d0 (LSend w)) in Hs; [exact Hs|exact Logic.I]).
      destruct (t_st s); try (noop E; exact Q1);
       (destruct (_ =? 1)%nat; [eapply Quiet_write; eauto|noop E; exact Q1]).
    + destruct (negb (t_impl s)); [noop E; exact Hs|]. destruct (t_st s) eqn:Es; try congruence;
      noop E; (apply Quiet_say; [exact Logic.I|exact Hs]).
    + exfalso. apply N. reflexivity.
    + destruct (t_impl s) eqn:I; unfold trClose in E; rewrite I in E; noop E; [|exact Hs].
      unfold Quiet. cbn. rewrite H2, H3, delivered_say by exact Logic.I. cbn. splits; auto. discriminate.
    + noop E; exact Hs.
  - destruct (t_tm s); noop E; exact Hs.
  - destruct (t_tm s); try (noop E; exact Hs). eapply Quiet_fail; [|exact E]. exact Hs.
  - destruct (nth_error (t_wrs s) k) as [[w [| |]]|]; try (noop E; exact Hs).
    destruct (_ && _); noop E; [|exact Hs]. apply Quiet_say; [exact Logic.I|exact Hs].
  - destruct (nth_error (t_wrs s) k) as [[w [| |]]|]; noop E; exact Hs.
  - destruct (nth_error (t_wrs s) k) as [[w x]|]; [|noop E; exact Hs].
    destruct x; destruct w; try (noop E; exact Hs); try (eapply Quiet_fail; [|exact E]; exact Hs).
    unfold writeHandler in E. cbn [set_wrs t_st t_q] in E.
    destruct (t_st s) eqn:Es; try (noop E; exact Hs);
     (destruct (t_q s) as [|w1 q1]; [noop E; exact Hs|]; destruct q1; [noop E; exact Hs|];
      eapply Quiet_write; [|exact E]; exact Hs).
Qed.
Lemma Quiet_run : forall d0 evs s s' r, Quiet d0 s -> Forall (fun e => ~ is_call CResume e) evs -> trun cb s evs = (s', r) -> Quiet d0 s'.
Proof.
  intros d0. induction evs as [|e evs IH]; intros s s' r H F E; cbn in E; [noop E; auto|].
  inversion F as [|? ? F1 F2]; subst.
  destruct (tstep cb s e) as [s1 o] eqn:T. eapply Quiet_step in T; eauto.
  destruct o as [x|]; eauto. destruct (catchable x); [|noop E; auto]. eapply IH; [| |exact E]; auto. apply Quiet_say; [exact Logic.I|auto].
Qed.
Lemma nothing_left : forall (l : list (N * rstat)), (forall off r, In (off, r) l -> r = RWait) ->
  filter (fun r => match snd r with RWait => false | _ => true end) l = [].
Proof.
  induction l as [|[off r] l IH]; intro H; cbn; auto. rewrite (H off r) by now left. apply IH. intros. eapply H. right; eauto.
Qed.
Lemma not_queued : forall s, ~ read_queued s -> forall off r, In (off, r) (t_rds s) -> r = RWait.
Proof.
  intros s H off r I. destruct r; auto; exfalso; apply H; exists off; eexists; split; eauto; discriminate.
Qed.
Lemma pause_quiet : forall evs s evs' s' r', trun cb tr_init evs = (s, None) -> t_st s = RUNNING -> ~ read_queued s ->
  Forall (fun e => ~ is_call CResume e) evs' ->
  trun cb s (EvCall CPause :: evs') = (s', r') -> delivered (t_log s') = delivered (t_log s).
Proof.
  intros evs s evs' s' r' E0 R Nq F E.
  assert (Hk : K s) by (eapply K_run; [apply K_init|eauto]).
  destruct Hk as [(I & O & S1 & C & _)|(_ & _ & _ & _ & P & _)].
  2:{ exfalso. rewrite R in P. assert (RUNNING = PAUSED) by (apply P; discriminate). discriminate. }
  assert (Cn : t_conn s = CoNone). { destruct (t_conn s) eqn:Ec; auto; rewrite C in R by discriminate; discriminate. }
  cbn [trun tstep do_call] in E. rewrite I, R, O in E. cbn [negb] in E.
  refine (proj1 (Quiet_run (delivered (t_log s)) _ _ _ _ _ F E)).
  unfold Quiet. cbn. rewrite Cn, delivered_say by exact Logic.I. splits; auto; [|discriminate].
  apply nothing_left. apply not_queued; auto.
Qed.

(* ---- at most one receive operation ---- *)
Definition Lone (s : tr) : Prop :=
  (length (t_rds s) <= 1)%nat /\ (t_impl s = true -> t_st s <> RUNNING -> t_rds s = []) /\
  (t_conn s <> CoNone -> t_st s = CONNECTING \/ t_impl s = false).
(* inside a read handler: none *)
Definition None1 (s : tr) : Prop := t_rds s = [] /\ (t_conn s <> CoNone -> t_impl s = false) /\ (t_impl s = true -> t_st s = RUNNING).
Lemma None1_Lone : forall s, None1 s -> Lone s.
Proof. intros s (H1 & H2 & H3). unfold Lone. rewrite H1. cbn. splits; auto. Qed.
Lemma Lone_fail : forall s s' r, Lone s -> failWith s = (s', r) -> Lone s'.
Proof.
  intros s s' r H E. unfold failWith, trClose in E. destruct (t_impl s) eqn:I; noop E; auto.
  destruct H as (H1 & _). unfold Lone. cbn. splits; auto; try discriminate.
  etransitivity; [apply filter_len|auto].
Qed.
Lemma None1_call : forall s c s' r, None1 s -> c <> CPause -> do_call s c = (s', r) -> None1 s'.
Proof.
  intros s c s' r Hs N E. assert (H := Hs). destruct H as (H1 & H2 & H3). destruct c; cbn [do_call] in E; try congruence.
  - destruct (t_impl s) eqn:I; cbn [negb] in E; [|noop E; exact Hs].
    assert (Q1 : None1 (set_q (t_q s ++ [w]) (say (LSend w) s))) by (unfold None1; cbn; rewrite I; auto).
    rewrite (H3 eq_refl) in E. destruct (_ =? 1)%nat; [|noop E; exact Q1].
    unfold asyncWrite in E. destruct (t_q _); noop E; exact Q1.
  - destruct (t_impl s) eqn:I; [|noop E; exact Hs]. noop E. unfold implResume. cbn. rewrite (H3 eq_refl).
    unfold None1; cbn. rewrite I. splits; auto.
  - unfold trClose in E. destruct (t_impl s) eqn:I; noop E; [|exact Hs]. unfold None1. cbn. rewrite H1. cbn. splits; auto; discriminate.
Qed.
Lemma Lone_read : no_pause_cb cb -> forall s x s' r, None1 s -> readHandler cb s x = (s', r) -> Lone s'.
Proof.
  intros Np s x s' r H E.
  apply (ladder_read cb None1) in E as [E|[(s0 & E & -> & _)|(s0 & E & F)]]; auto.
  - now apply None1_Lone.
  - destruct E as (H1 & H2 & H3). unfold Lone, asyncReceive. cbn. rewrite H1. cbn. splits; auto.
    intros I S1. elim S1. auto.
  - eapply Lone_fail; [|exact F]. now apply None1_Lone.
  - intros l s1 c s2 r2 H1 I D. eapply None1_call; eauto. intros ->. eapply Np; eauto.
Qed.
Lemma Lone_say : forall x s, Lone s -> Lone (say x s).
Proof. intros x s H. exact H. Qed.
Lemma Lone_write : forall s s' r, Lone s -> asyncWrite s = (s', r) -> Lone s'.
Proof. intros s s' r H E. unfold asyncWrite in E. destruct (t_q s); noop E; exact H. Qed.
Lemma replace_len : forall {A} k (x : A) l y, nth_error l k = Some y -> length (replace_nth k x l) = length l.
Proof.
  intros A k x l y H. assert (k < length l)%nat by (apply nth_error_Some; congruence).
  unfold replace_nth. rewrite app_length, firstn_length. cbn [length]. rewrite skipn_length. lia.
Qed.
Lemma Lone_step : no_pause_cb cb -> forall s e s' r, K s -> Lone s -> (e = EvCall CPause -> ~ read_queued s) ->
  tstep cb s e = (s', r) -> Lone s'.
Proof.
  intros Np s e s' r Hk Hs Po E. assert (H := Hs). destruct H as (H1 & H2 & H3).
  destruct e; cbn [tstep] in E.
  - destruct c; cbn [do_call] in E.
    + destruct (negb (t_impl s)); [noop E; exact Hs|].
      destruct (t_st s) eqn:Es; try (noop E; unfold Lone; cbn; rewrite Es; splits; auto; fail);
       (destruct (_ =? 1)%nat; [eapply Lone_write; [|exact E]|noop E]; unfold Lone; cbn; rewrite Es; splits; auto).
    + destruct (t_impl s) eqn:I; cbn [negb] in E; [|noop E; exact Hs].
      destruct (t_st s) eqn:Es; try (noop E; unfold Lone; cbn; rewrite Es, I; splits; auto; fail).
      destruct (t_open s); noop E; [|exact Hs].
      specialize (Po eq_refl). unfold Lone. cbn. rewrite (nothing_left _ (not_queued _ Po)). cbn. splits; auto.
      intro C. destruct (t_conn s) eqn:Ec; [congruence| |..]; destruct (H3 ltac:(congruence)); congruence.
    + destruct (t_impl s) eqn:I; noop E; [|exact Hs]. unfold implResume. cbn.
      destruct (t_st s) eqn:Es; try (unfold Lone; cbn; rewrite Es, I; splits; auto; fail).
      unfold Lone, asyncReceive. cbn. rewrite H2 by (auto; congruence). cbn. splits; auto; try congruence.
      intro C. destruct (H3 C); [discriminate|congruence].
    + unfold trClose in E. destruct (t_impl s) eqn:I; noop E; [|exact Hs]. unfold Lone. cbn.
      splits; auto; try discriminate. etransitivity; [apply filter_len|auto].
    + noop E; exact Hs.
  - destruct (t_conn s) eqn:Ec; noop E; try exact Hs. unfold Lone. cbn. splits; auto. intros _. apply H3. congruence.
  - assert (G : t_conn s <> CoNone -> forall ok, connectHandler (set_conn CoNone s) ok = (s', r) -> Lone s').
    { intros C ok G. unfold connectHandler in G. destruct ok; cbn [negb] in G.
      - cbn [t_q set_st set_tm set_conn] in G. destruct (t_q s) as [|w q] eqn:Eq.
        + noop G. unfold Lone. cbn. splits; auto; try congruence. intros I _.
          destruct (H3 C) as [S1|I']; [|congruence]. apply H2; auto; congruence.
        + destruct Hk as [(I & _ & _ & C1 & _)|(_ & _ & _ & _ & _ & Q0 & _)]; [|congruence].
          eapply Lone_write; [|exact G]. unfold implResume, Lone, asyncReceive. cbn.
          rewrite H2; auto; [|rewrite C1; auto; discriminate]. cbn. splits; auto; congruence.
      - eapply Lone_fail; [|exact G]. unfold Lone. cbn. splits; auto; congruence. }
    destruct (t_conn s) eqn:Ec; try (noop E; exact Hs); eapply G; eauto; discriminate.
  - destruct (t_tm s); noop E; exact Hs.
  - destruct (t_tm s); try (noop E; exact Hs). eapply Lone_fail; [|exact E]. exact Hs.
  - destruct (nth_error (t_rds s) k) as [[off [| |]]|] eqn:En; try (noop E; exact Hs).
    destruct (_ && _); noop E; [|exact Hs]. unfold Lone. cbn. rewrite (replace_len _ _ _ _ En). splits; auto.
    intros I S1. rewrite (H2 I S1) in En. rewrite nth_nil in En. discriminate.
  - destruct (nth_error (t_rds s) k) as [[off [| |]]|] eqn:En; noop E; try exact Hs.
    unfold Lone. cbn. rewrite (replace_len _ _ _ _ En). splits; auto.
    intros I S1. rewrite (H2 I S1) in En. rewrite nth_nil in En. discriminate.
  - destruct (nth_error (t_rds s) k) as [[off x]|] eqn:En; [|noop E; exact Hs].
    assert (B : None1 (set_rds (remove_nth k (t_rds s)) s)).
    { destruct (one_nth _ _ _ H1 En) as [El ->]. unfold None1. cbn. rewrite El. unfold remove_nth. cbn. splits; auto.
      - intro C. destruct (H3 C) as [S1|]; auto. destruct (t_impl s) eqn:I; auto. rewrite H2 in El; auto; congruence.
      - intro I. destruct (t_st s) eqn:Es; auto; rewrite H2 in El; auto; congruence. }
    destruct x; [noop E; exact Hs|..]; eapply Lone_read; eauto.
  - destruct (nth_error (t_wrs s) k) as [[w [| |]]|]; try (noop E; exact Hs).
    destruct (_ && _); noop E; exact Hs.
  - destruct (nth_error (t_wrs s) k) as [[w [| |]]|]; noop E; exact Hs.
  - destruct (nth_error (t_wrs s) k) as [[w x]|]; [|noop E; exact Hs].
    destruct x; destruct w; try (noop E; exact Hs); try (eapply Lone_fail; [|exact E]; exact Hs).
    unfold writeHandler in E. cbn [set_wrs t_st t_q] in E.
    destruct (t_st s) eqn:Es; try (noop E; exact Hs);
     (destruct (t_q s) as [|w1 q1]; [noop E; exact Hs|]; destruct q1; [noop E; exact Hs|];
      eapply Lone_write; [|exact E]; exact Hs).
Qed.
Lemma Lone_run : no_pause_cb cb -> forall evs s s' r, K s -> Lone s -> polite cb s evs -> trun cb s evs = (s', r) -> Lone s'.
Proof.
  intros Np. induction evs as [|e evs IH]; intros s s' r Hk H Po E; cbn [trun polite] in *; [noop E; auto|].
  destruct Po as [P1 P2].
  destruct (tstep cb s e) as [s1 o] eqn:T. assert (K1 : K s1) by (eapply K_step; eauto). eapply Lone_step in T; eauto.
  destruct o as [x|]; eauto. destruct (catchable x); [|noop E; auto]. eapply IH; [| | |exact E]; auto. apply K_say; [exact Logic.I|auto].
Qed.
Lemma one_receive : no_pause_cb cb -> forall evs s r, polite cb tr_init evs -> trun cb tr_init evs = (s, r) -> (length (t_rds s) <= 1)%nat.
Proof.
  intros Np evs s r Po E. eapply Lone_run in E; eauto; [apply E|apply K_init|]. unfold Lone. cbn. splits; auto.
Qed.

(* ---- closed and nothing queued: inert ---- *)
Definition Inert (s : tr) : Prop := t_rds s = [] /\ t_wrs s = [] /\ t_conn s = CoNone /\ t_tm s = TmNone.
Lemma Inert_run : forall s, Inert s -> forall evs, Forall environment evs -> trun cb s evs = (s, None).
Proof.
  intros s (H1 & H2 & H3 & H4). induction evs as [|e evs IH]; intro F; [reflexivity|].
  inversion F as [|? ? F1 F2]; subst. cbn [trun].
  assert (T : tstep cb s e = (s, None)) by (destruct e; cbn [tstep]; rewrite ?H1, ?H2, ?H3, ?H4, ?nth_nil; auto; destruct F1).
  rewrite T. auto.
Qed.
Lemma close_inert : forall s s' evs, ~ handler_queued s -> tstep cb s (EvCall CClose) = (s', None) -> Forall environment evs ->
  t_st s' = CLOSED /\ delivered (t_log s') = delivered (t_log s) /\ trun cb s' evs = (s', None).
Proof.
  intros s s' evs N E F. cbn in E. unfold trClose in E. destruct (t_impl s); [|discriminate]. injection E as <-.
  unfold handler_queued in N. cbn. rewrite delivered_say by exact Logic.I. splits; auto.
  apply Inert_run; auto. unfold Inert. cbn. splits.
  - apply nothing_left. apply not_queued. tauto.
  - assert (forall w r, In (w, r) (t_wrs s) -> r = WWait).
    { intros w r I. destruct r; auto; exfalso; apply N; right; left; exists w; eexists; split; eauto; discriminate. }
    clear N F. induction (t_wrs s) as [|[w r] l IH]; cbn; auto. rewrite (H w r) by now left. apply IH. intros. eapply H. right; eauto.
  - destruct (t_conn s); auto; exfalso; apply N; tauto.
  - destruct (t_tm s); auto; exfalso; apply N; tauto.
Qed.
End Cb.

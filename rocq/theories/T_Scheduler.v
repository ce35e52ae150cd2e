(* C35, C36, C37: the Scheduler. *)
From Coq Require Import Lia ZArith Permutation.
From Verif Require Import Base BaseLemmas M_Scheduler S_Scheduler P_Scheduler.
Open Scope Z_scope.

(* A run used as example, from time 100.  Events 0 and 1 are set to expire at 110, event 2 at 105, event 3 at 120.
   Event 1 is cancelled, the timer wakes up at 111; the callback of 2 schedules event 4 to run at once; the callback of 0 throws;
   the timer wakes up again. *)
Definition ex_acts : list sact :=
  [SSchedule 10; SSchedule 10; SSchedule 5; SSchedule 20; SCancel 1; STime 11; SFire; SWake;
   SRun; SSchedule (-1); SReturn; SRun; SThrow; SFire; SWake; SRun; SReturn; SDone].
Definition ex_obs : list sobs :=
  [OSched 0 110; OSched 1 110; OSched 2 105; OSched 3 120; OCancel 1; ORun 2 111; OSched 4 110; ORun 0 111; ORun 4 111].
Example ex_acts_run : exists s, sc_run ex_acts (sc_init 100) = Ok (s, ex_obs) /\ sc_queue s = [mkEv 3 120] /\ sc_wait s = Some 120 /\ sc_loop s = None.
Proof. eexists. split; [vm_compute; reflexivity|]. split; [|split]; reflexivity. Qed.

(* C35: callbacks run at most once *)
Theorem C35_at_most_once : forall acts t0 s l, sc_run acts (sc_init t0) = Ok (s, l) -> NoDup (runs l).
Proof. intros acts t0 s l H. apply run_obs in H as [_ H]. now apply runs_nodup. Qed.
Print Assumptions C35_at_most_once.

(* every run is of an event that is pending, not before its expiry, and of the soonest of the pending ones *)
Theorem C35_not_early_in_order : forall acts t0 s l a i t b, sc_run acts (sc_init t0) = Ok (s, l) -> l = a ++ ORun i t :: b ->
  exists x, In (i, x) (pend a) /\ x <= t /\ forall e, In e (pend a) -> e <> (i, x) -> sooner (i, x) e.
Proof. intros acts t0 s l a i t b H E. apply run_obs in H as [_ H]. exact (H a _ b E). Qed.
Print Assumptions C35_not_early_in_order.
(* events are distinguished: identifiers are used once; the expiry is the time of the call plus the delay *)
Theorem C35_identifiers : forall acts t0 s l, sc_run acts (sc_init t0) = Ok (s, l) -> NoDup (scheds l) /\ (forall e, In e (pend l) -> In (fst e) (scheds l)).
Proof. intros acts t0 s l H. apply run_obs in H as [_ H]. split; [now apply scheds_nodup|intro e; apply pend_scheds]. Qed.
Print Assumptions C35_identifiers.
Theorem C35_expiry : forall acts t0 s l after s' o, sc_run acts (sc_init t0) = Ok (s, l) -> sc_step (SSchedule after) s = Ok (s', o) ->
  exists i, o = [OSched i (sc_now s + after)] /\ ~ In i (scheds l).
Proof.
  intros acts t0 s l after s' o H E. apply run_obs in H as [(_ & _ & _ & Lt & _) _]. cbn in E. destruct (sc_schedule after s); [|discriminate]. cbn in E. injection E as <- <-.
  exists (sc_next s). split; auto. intro I. apply Lt in I. lia.
Qed.
Print Assumptions C35_expiry.
Example C35_ex : pend (firstn 7 ex_obs) = [(4%nat, 110); (3%nat, 120); (0%nat, 110)] /\ runs ex_obs = [2%nat; 0%nat; 4%nat] /\
  sooner (0%nat, 110) (4%nat, 110) /\ sooner (0%nat, 110) (3%nat, 120).
Proof. splits; try (vm_compute; reflexivity); [right|left]; cbn; lia. Qed.

(* C36: cancelled events do not run afterwards *)
Theorem C36_cancelled : forall acts t0 s l a i b, sc_run acts (sc_init t0) = Ok (s, l) -> l = a ++ OCancel i :: b -> In i (scheds a) -> ~ In i (runs b).
Proof. intros acts t0 s l a i b H -> Sc. apply run_obs in H as [_ H]. eapply cancelled_gone; eauto. Qed.
Print Assumptions C36_cancelled.
Theorem C36_cancelled_all : forall acts t0 s l a i b, sc_run acts (sc_init t0) = Ok (s, l) -> l = a ++ OCancelAll :: b -> In i (scheds a) -> ~ In i (runs b).
Proof. intros acts t0 s l a i b H -> Sc. apply run_obs in H as [_ H]. eapply all_gone; eauto. Qed.
Print Assumptions C36_cancelled_all.
(* through a scoped handle: when it is destroyed, cancelled, or replaced *)
Theorem C36_scoped : forall ops t0 s h l v i o ops2 s2 h2 l2,
  hs_run ops (sc_init t0) (fun _ => None) = Ok (s, h, l) -> h v = Some i -> In i (scheds l) ->
  (o = HDestroy v \/ o = HCancel v \/ (exists j, o = HAssign v j) \/ (exists w, o = HMove v w)) ->
  hs_run (o :: ops2) s h = Ok (s2, h2, l2) -> ~ In i (runs l2).
Proof. exact scoped_gone. Qed.
Print Assumptions C36_scoped.
(* the handle that was moved from or released no longer cancels *)
Theorem C36_scoped_moved : forall v w h, v <> w -> fst (hs_acts (HDestroy w) (snd (hs_acts (HMove v w) h))) = [] /\ snd (hs_acts (HMove v w) h) v = h w /\
  fst (hs_acts (HDestroy v) (snd (hs_acts (HRelease v) h))) = [].
Proof.
  intros v w h N. cbn. unfold hcancel, hput. rewrite !Nat.eqb_refl. apply Nat.eqb_neq in N. rewrite N. rewrite Nat.eqb_sym in N. rewrite N. auto.
Qed.
Print Assumptions C36_scoped_moved.
(* releasing a handle does nothing to the scheduler, and the event that it held can still be run *)
Theorem C36_released : forall ops t0 s h l v, hs_run ops (sc_init t0) (fun _ => None) = Ok (s, h, l) ->
  exists h', hs_run (ops ++ [HRelease v]) (sc_init t0) (fun _ => None) = Ok (s, h', l) /\ h' v = None /\ forall w, w <> v -> h' w = h w.
Proof.
  intros ops t0 s h l v H. exists (hput v None h). split; [|split].
  - revert H. generalize (sc_init t0) as s0. generalize (fun _ : nat => @None nat) as h0. revert l.
    induction ops as [|o ops IH]; intros l h0 s0 H; cbn [app hs_run] in *.
    + injection H as <- <- <-. reflexivity.
    + destruct (sc_run (fst (hs_acts o h0)) s0) as [r1|]; cbn [bind] in *; [|discriminate].
      destruct (hs_run ops (fst r1) (snd (hs_acts o h0))) as [[[s2 h2] l2]|] eqn:E; cbn [bind] in *; [|discriminate].
      cbn [fst snd] in H. injection H as -> -> <-. apply IH in E. rewrite E. reflexivity.
  - unfold hput. now rewrite Nat.eqb_refl.
  - intros w N. unfold hput. apply Nat.eqb_neq in N. first [now rewrite N | rewrite Nat.eqb_sym in N; now rewrite N].
Qed.
Print Assumptions C36_released.
(* cancelling an event that is not pending changes nothing; in all cases the other events stay pending *)
Theorem C36_no_effect : forall acts t0 s l i, sc_run acts (sc_init t0) = Ok (s, l) ->
  (~ In i (map fst (pend l)) -> sc_cancel i s = s) /\
  (forall e, In e (pend (l ++ [OCancel i])) <-> In e (pend l) /\ fst e <> i).
Proof.
  intros acts t0 s l i H. apply run_obs in H as [(_ & Q & _) _]. split.
  - intro N. unfold sc_cancel. destruct (ev_mem i (sc_queue s)) eqn:M; [|reflexivity]. elim N. apply mem_in in M as (e & I & E).
    apply Q in I. apply in_map_iff. exists (evk e). auto.
  - intro e. rewrite pend_app. apply filter_fst.
Qed.
Print Assumptions C36_no_effect.
(* the EventId converts to true exactly while the event is pending *)
Theorem C36_valid : forall acts t0 s l i, sc_run acts (sc_init t0) = Ok (s, l) -> (sc_valid i s = true <-> In i (map fst (pend l))).
Proof.
  intros acts t0 s l i H. apply run_obs in H as [(_ & Q & _) _]. unfold sc_valid. rewrite mem_in, in_map_iff. split.
  - intros (e & I & E). exists (evk e). split; auto. now apply Q.
  - intros ((j & x) & E & I). exists (mkEv j x). split; auto. now apply Q.
Qed.
Print Assumptions C36_valid.
Example C36_ex : (exists a b, ex_obs = a ++ OCancel 1 :: b /\ In 1%nat (scheds a) /\ length b = 4%nat) /\
  (exists s h l s2 h2 l2, hs_run [HAct (SSchedule 10); HAssign 7 0] (sc_init 0) (fun _ => None) = Ok (s, h, l) /\ h 7%nat = Some 0%nat /\ In 0%nat (scheds l) /\
     hs_run [HDestroy 7; HAct (SSchedule 0); HAct SFire; HAct SWake; HAct SRun] s h = Ok (s2, h2, l2) /\ runs l2 = [1%nat]).
Proof.
  split.
  - exists (firstn 4 ex_obs), (skipn 5 ex_obs). splits; auto. right. left. reflexivity.
  - do 6 eexists. split; [vm_compute; reflexivity|]. split; [vm_compute; reflexivity|]. split; [vm_compute; auto|]. split; vm_compute; reflexivity.
Qed.

(* C37: with events pending and the scheduler idle, the timer is set for no later than the soonest event, or its wake-up is already queued *)
Theorem C37_armed : forall acts t0 s l i x, sc_run acts (sc_init t0) = Ok (s, l) -> sc_loop s = None -> In (i, x) (pend l) ->
  (0 < sc_ready s)%nat \/ exists t, sc_wait s = Some t /\ forall e, In e (pend l) -> t <= snd e.
Proof.
  intros acts t0 s l i x H L P. apply run_obs in H as [(So & Q & _ & _ & _ & _ & Tm & _) _].
  destruct (sc_queue s) as [|e q] eqn:E; [elim (proj2 (Q (mkEv i x))); auto|].
  destruct (Tm e q L eq_refl) as [R|(t & W & Le)]; auto. right. exists t. split; auto. intros [j y] I.
  assert (Iq : In (mkEv j y) (e :: q)) by (apply Q; exact I). apply Sorted.StronglySorted_inv in So as [_ F]. rewrite Forall_forall in F.
  destruct Iq as [-> |Iq]; [exact Le|]. apply F in Iq. unfold lexs, sooner in Iq. cbn in *. lia.
Qed.
Print Assumptions C37_armed.
(* whatever happened before, an event that is due runs once the timer and the io_context do their part and callbacks return *)
Theorem C37_runs : forall acts t0 s l i x, sc_run acts (sc_init t0) = Ok (s, l) -> sc_loop s = None -> In (i, x) (pend l) -> x <= sc_now s ->
  exists acts' s' l', (forall a, In a acts' -> a = SFire \/ a = SWake \/ a = SRun \/ a = SReturn \/ a = SDone) /\
    sc_run acts' s = Ok (s', l') /\ In (ORun i (sc_now s)) l' /\ sc_loop s' = None.
Proof. exact progress. Qed.
Print Assumptions C37_runs.
(* the loop of executeEvent is never stuck: a callback is running, or the next event is due, or it ends *)
Theorem C37_loop : forall s n, sc_loop s = Some (n, false) -> (exists r, sc_step SRun s = Ok r) \/ (exists r, sc_step SDone s = Ok r).
Proof.
  intros s n H. cbn. rewrite H. destruct (sc_queue s) as [|e q]; [right; eauto|]. destruct (n <? ev_exp e); [right|left]; eauto.
Qed.
Print Assumptions C37_loop.
Example C37_ex : exists s l, sc_run (firstn 13 ex_acts) (sc_init 100) = Ok (s, l) /\ sc_loop s = None /\ In (4%nat, 110) (pend l) /\ 110 <= sc_now s /\ sc_wait s = Some 110.
Proof.
  do 2 eexists. split; [vm_compute; reflexivity|]. split; [reflexivity|]. split; [vm_compute; auto|]. split; [cbn; lia|reflexivity].
Qed.

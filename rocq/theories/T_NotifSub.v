(* C82, C83, C84: the subscriber of a notification stream. *)
From Coq Require Import ZArith Lia String.
From Verif Require Import Base BaseLemmas M_Tlv M_Name S_Name M_NotifSub S_NotifSub P_NotifSub P_NotifSub2.
Open Scope list_scope.
Open Scope N_scope.

(* the stream /p and the Data /p/seq=n *)
Definition ex_p : name := nm_of [mkComp 8 None (str "p")].
Definition ex_d (n : N) : name := match fromKind TYPED KSequenceNumber n with Ok c => nm_append c ex_p | Err _ => ex_p end.
Notation ex_run := (su_run TYPED TYPED ex_p).
(* a notification handler is connected, the subscriber is started and its Interest sent *)
Definition ex_begin : list sev := [EvAct (ActHandlers true false); EvAct ActStart; EvTask].

(* ---- C82: one Interest, as long as the subscriber runs, and none when it does not ---- *)

(* When the face has done everything that was posted, at most one Interest of the subscriber is pending, and none if the subscriber is
   stopped or was destroyed; for every sequence of calls, answers, timeouts and actions of handlers, which may throw. *)
Theorem C82_one_pending : forall conv dconv prefix l s o, su_run conv dconv prefix l su_new = (s, o) -> su_queue s = [] ->
  (List.length (su_table s) <= 1)%nat /\ (su_running s = false \/ su_alive s = false -> su_table s = []).
Proof. exact run_pending. Qed.
Print Assumptions C82_one_pending.
Example C82_one_pending_ex :
  let (s, o) := ex_run (ex_begin ++ [EvData 0 (ex_d 5) true [ActStop; ActStart] false; EvTask; EvTask; EvTask; EvTask]) su_new in
  su_queue s = [] /\ su_table s = [mkPent 2 (SNext 6) true] /\ o = [OSend 0 SInitial; ODeliver 0 5; OSend 1 SInitial; OSend 2 (SNext 6)].
Proof. vm_compute. auto. Qed.
Example C82_one_pending_ex_stopped :
  let (s, o) := ex_run (ex_begin ++ [EvAct ActStop; EvTask]) su_new in su_queue s = [] /\ su_running s = false /\ su_table s = [].
Proof. vm_compute. auto. Qed.

(* A running subscriber goes on asking: an Interest is pending, which will be answered or time out, or a retry is scheduled.  Handlers may
   do anything, except that onTimeout must not throw. *)
Theorem C82_keeps_asking_partial : forall conv dconv prefix l s o, Forall quiet_timeout l -> ~ In OUb o ->
  su_run conv dconv prefix l su_new = (s, o) -> su_queue s = [] -> su_alive s = true -> su_running s = true ->
  su_timer s = true \/ exists i k, su_table s = [mkPent i k true].
Proof. exact run_alive. Qed.
Print Assumptions C82_keeps_asking_partial.
Example C82_keeps_asking_ex :
  let l := ex_begin ++ [EvData 0 (ex_d 5) true [] true; EvTimeout 0 [] false; EvTask; EvTask; EvNack 1 7 [] false] in
  let (s, o) := ex_run l su_new in
  Forall quiet_timeout l /\ ~ In OUb o /\ su_queue s = [] /\ su_alive s = true /\ su_running s = true /\ su_timer s = true /\ su_table s = [] /\
  o = [OSend 0 SInitial; ODeliver 0 5; OLate 0; OSend 1 SInitial; ONack 1 0; OWait 0 207].
Proof. vm_compute. splits; repeat constructor. intuition discriminate. Qed.

(* If a handler of onTimeout throws, the subscriber says that it is running, but it has no Interest that can time out and no retry; start()
   has no effect. *)
Theorem C82_throwing_refuted : exists l s o, ex_run l su_new = (s, o) /\ ~ In OUb o /\ su_queue s = [] /\ su_alive s = true /\ su_running s = true /\
  su_timer s = false /\ (forall x, In x (su_table s) -> pe_timed x = false) /\ su_step TYPED TYPED ex_p (EvAct ActStart) s = (s, []).
Proof.
  exists (ex_begin ++ [EvTimeout 0 [] true]). eexists. eexists. split; [vm_compute; reflexivity|]. cbn. splits; auto.
  - intuition discriminate.
  - intros x [<-|[]]. reflexivity.
Qed.
Print Assumptions C82_throwing_refuted.

(* While it is stopped, the subscriber neither sends nor calls a handler, whatever arrives, until it is started again. *)
Theorem C82_silent : forall conv dconv prefix e s s' c, su_running s = false -> su_alive s = true -> e <> EvAct ActStart ->
  su_step conv dconv prefix e s = (s', c) -> c = [] /\ su_running s' = false.
Proof. exact stopped_silent. Qed.
Print Assumptions C82_silent.
(* the Interest is still pending when the Data arrives after stop *)
Example C82_silent_ex :
  let (s, o) := ex_run (ex_begin ++ [EvAct ActStop]) su_new in
  su_running s = false /\ su_alive s = true /\ su_table s = [mkPent 0 SInitial true] /\ snd (su_step TYPED TYPED ex_p (EvData 0 (ex_d 5) true [] false) s) = [].
Proof. vm_compute. auto. Qed.

(* Destroying the subscriber does not have that effect: its Interest is withdrawn by a posted function, and an answer that arrives before
   uses the object that is gone. *)
Theorem C82_destroy_refuted : exists l s o, ex_run l su_new = (s, o) /\ In OUb o /\ ~ In OUb (snd (ex_run (removelast l) su_new)) /\ su_alive (fst (ex_run (removelast l) su_new)) = false.
Proof.
  exists (ex_begin ++ [EvDestroy; EvData 0 (ex_d 5) true [] false]). eexists. eexists. split; [vm_compute; reflexivity|]. vm_compute. splits; auto. intuition discriminate.
Qed.
Print Assumptions C82_destroy_refuted.

(* ---- C83: the order of notifications ---- *)

(* Every notification that is delivered answers the initial Interest, or the Interest for exactly its number that was sent after the
   notification with the previous number. *)
Theorem C83_in_sequence : forall conv dconv prefix, can_decode dconv conv = true -> forall l s o, su_run conv dconv prefix l su_new = (s, o) -> in_sequence o.
Proof. exact run_in_sequence. Qed.
Print Assumptions C83_in_sequence.
Example C83_in_sequence_ex : can_decode TYPED TYPED = true /\
  snd (ex_run (ex_begin ++ [EvData 0 (ex_d (2 ^ 64 - 1)) true [] false; EvTask; EvTask; EvData 1 (ex_d 0) true [] false; EvTask; EvTask; EvData 2 (ex_d 1) false [] false]) su_new) =
  [OSend 0 SInitial; ODeliver 0 (2 ^ 64 - 1); OSend 1 (SNext 0); ODeliver 1 0; OSend 2 (SNext 1); OBad 2; OSend 3 SInitial].
Proof. vm_compute. auto. Qed.

(* After a notification the next number is asked for, unless the subscriber was stopped. *)
Theorem C83_next : forall conv dconv prefix i d ok acts s s' c n, su_step conv dconv prefix (EvData i d ok acts false) s = (s', c) -> In (ODeliver i n) c ->
  su_running s' = true -> exists c1 j, c = ODeliver i n :: c1 ++ [OSend j (SNext ((n + 1) mod 2 ^ 64))].
Proof. exact next_after. Qed.
Print Assumptions C83_next.
Example C83_next_ex : let (s, o) := ex_run ex_begin su_new in
  let (s', c) := su_step TYPED TYPED ex_p (EvData 0 (ex_d 5) true [] false) s in In (ODeliver 0 5) c /\ su_running s' = true.
Proof. vm_compute. auto. Qed.

(* No Interest delivers two notifications, if no handler throws. *)
Theorem C83_once_partial : forall conv dconv prefix l s o, Forall quiet l -> su_run conv dconv prefix l su_new = (s, o) -> NoDup (delivered_for o).
Proof. intros conv dconv prefix l s o F H. exact (proj1 (run_once conv dconv prefix l s o F H)). Qed.
Print Assumptions C83_once_partial.
Example C83_once_ex : let l := ex_begin ++ [EvData 0 (ex_d 5) true [] false; EvData 0 (ex_d 5) true [] false] in
  Forall quiet l /\ delivered_for (snd (ex_run l su_new)) = [0%nat].
Proof. vm_compute. split; [repeat constructor|reflexivity]. Qed.
(* If a handler throws, its Interest stays pending and delivers again. *)
Theorem C83_throwing_refuted : exists l, ~ NoDup (delivered_for (snd (ex_run l su_new))) /\ ~ In OUb (snd (ex_run l su_new)).
Proof.
  exists (ex_begin ++ [EvData 0 (ex_d 5) true [] true; EvData 0 (ex_d 5) true [] false]). vm_compute. split; [|intuition discriminate].
  intro H. inversion H as [|? ? N _]. apply N. left. reflexivity.
Qed.
Print Assumptions C83_throwing_refuted.
(* The same notification can be delivered twice in a row although no handler throws and the subscriber is not stopped after the first:
   a retry sends an Interest while another is pending, and its withdrawal is posted. *)
Theorem C83_twice_refuted : exists l a i j k b, Forall quiet l /\ i <> j /\ snd (ex_run l su_new) = a ++ ODeliver i 5 :: OSend k (SNext 6) :: ODeliver j 5 :: b.
Proof.
  exists (ex_begin ++ [EvNack 0 0 [] false; EvAct ActStop; EvTask; EvAct ActStart; EvTask; EvTimer; EvData 1 (ex_d 5) true [] false; EvTask; EvTask; EvData 2 (ex_d 5) true [] false]).
  exists [OSend 0 SInitial; ONack 0 0; OWait 0 200; OSend 1 SInitial; OSend 2 SInitial], 1%nat, 2%nat, 3%nat, [OSend 4 (SNext 6)].
  split; [repeat constructor|]. split; [discriminate|]. vm_compute. reflexivity.
Qed.
Print Assumptions C83_twice_refuted.

(* ---- C84: retrying after a Nack ---- *)

(* The k-th Nack in a row with the same number (0 if the Interest has none) is followed by a wait of 2^k * 100 ms and less than 100 ms more.
   The number 2^64-1 is the initial value of the variable with which numbers are compared, so the claim leaves it out. *)
Theorem C84_delay : forall conv dconv prefix l s o, su_run conv dconv prefix l su_new = (s, o) ->
  forall a n d b, o = a ++ OWait n d :: b -> ~ In OUb a -> n <> 2 ^ 64 - 1 -> exists r, r < 100 /\ d = 100 * 2 ^ (1 + streak n (nacked a [])) + r.
Proof. exact run_backoff. Qed.
Print Assumptions C84_delay.
Example C84_delay_ex :
  snd (ex_run (ex_begin ++ [EvData 0 (ex_d 5) true [] false; EvTask; EvTask; EvNack 1 17 [] false; EvTimer; EvTask; EvTask; EvNack 2 203 [] false; EvTimer; EvTask; EvTask; EvNack 3 99 [] false]) su_new) =
  [OSend 0 SInitial; ODeliver 0 5; OSend 1 (SNext 6); ONack 1 6; OWait 6 217; OSend 2 SInitial; ONack 2 0; OWait 0 203; OSend 3 SInitial; ONack 3 0; OWait 0 499] /\
  streak 0 (nacked [OWait 6 217; OWait 0 203] []) = 1.
Proof. vm_compute. auto. Qed.

(* All is defined if the prefix is not empty, the subscriber is not destroyed and there are at most 55 Nacks. *)
Theorem C84_defined_partial : forall conv dconv prefix l s o, n_comps prefix <> [] -> ~ In EvDestroy l -> (nacks l <= 55)%nat ->
  su_run conv dconv prefix l su_new = (s, o) -> ~ In OUb o.
Proof. intros conv dconv prefix l s o NE ND NK H. exact (proj1 (run_defined conv dconv prefix l s o NE ND NK H)). Qed.
Print Assumptions C84_defined_partial.
Example C84_defined_ex : let l := ex_begin ++ [EvNack 0 0 [] false] in n_comps ex_p <> [] /\ ~ In EvDestroy l /\ nacks l = 1%nat.
Proof. vm_compute. splits; auto; [discriminate|intuition discriminate]. Qed.
Lemma has_ub : forall l, existsb (fun x => match x with OUb => true | _ => false end) l = true -> In OUb l.
Proof. intros l H. apply existsb_exists in H as (x & I & E). destruct x; try discriminate E. exact I. Qed.
(* The delay grows without limit: with the 57th Nack in a row it does not fit in the integer to which it is converted. *)
Theorem C84_overflow_refuted : exists l, ~ In EvDestroy l /\ nacks l = 57%nat /\ In OUb (snd (ex_run l su_new)).
Proof.
  exists (ex_begin ++ flat_map (fun i => [EvNack i 0 [] false; EvTimer; EvTask; EvTask]) (seq 0 57)).
  split; [|split; [reflexivity|]].
  - intro I. apply in_app_iff in I as [I|I]; [cbn in I; intuition discriminate|]. apply in_flat_map in I as (i & _ & I). cbn in I. intuition discriminate.
  - apply has_ub. vm_compute. reflexivity.
Qed.
Print Assumptions C84_overflow_refuted.

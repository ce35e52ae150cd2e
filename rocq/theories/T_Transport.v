(* Theorems about the stream transport: C42, C43, C64, C65. *)
From Coq Require Import Lia ZifyBool ZifyNat ZifyN.
From Verif Require Import Base BaseLemmas M_Tlv P_Tlv S_Tlv M_Block P_Block M_Transport S_Transport P_Transport P_TransportR P_TransportT P_TransportS.

Definition pkA : elem := mkElem 5 [x05; x02] [x07; x00].
Definition pkB : elem := mkElem 6 [x06; x01] [xff].
Lemma pkA_packet : is_packet pkA.
Proof. split; [|vm_compute; discriminate]. split; [reflexivity|]. split; [reflexivity|]. exists [x05], [x02]. splits; [apply (VN1 x05)|apply (VN1 x02)|]; reflexivity. Qed.
Lemma pkB_packet : is_packet pkB.
Proof. split; [|vm_compute; discriminate]. split; [reflexivity|]. split; [reflexivity|]. exists [x06], [x01]. splits; [apply (VN1 x06)|apply (VN1 x01)|]; reflexivity. Qed.
Definition nothing : list tlog -> list call := fun _ => [].

(* ---- C42 ----
   pkts is what the peer sends; the octets received so far are a prefix of it, cut into reads in any way and interleaved
   with anything but pause, close, exceptions and socket errors.  The callback has then seen the first k packets, in
   order and unchanged, and unless a completed read is still waiting for its handler, what follows them is less than one
   packet.  A receive operation with room in the buffer is always outstanding while the transport runs. *)
Theorem C42_chunking : forall cb evs pkts s r, calm_cb cb -> Forall calm evs -> Forall is_packet pkts ->
  trun cb tr_init evs = (s, r) -> (exists future, concat (map e_wire pkts) = received (t_log s) ++ future) ->
  r = None /\ ~ thrown (t_log s) /\
  (t_st s = RUNNING -> exists off x, t_rds s = [(off, x)] /\ off < 8800 /\ x <> RBad) /\
  exists k, delivered (t_log s) = firstn k pkts /\
    (~ read_queued s -> exists partial, received (t_log s) = concat (map e_wire (firstn k pkts)) ++ partial /\
       ((partial = [] /\ (k <= length pkts)%nat) \/ exists p x, nth_error pkts k = Some p /\ e_wire p = partial ++ x /\ x <> [])).
Proof. intros cb evs pkts s r C. apply chunking; exact C. Qed.
Print Assumptions C42_chunking.

(* once the whole stream has been read and handled, exactly the packets were delivered *)
Theorem C42_all_delivered : forall cb evs pkts s r, calm_cb cb -> Forall calm evs -> Forall is_packet pkts ->
  trun cb tr_init evs = (s, r) -> received (t_log s) = concat (map e_wire pkts) -> ~ read_queued s ->
  r = None /\ delivered (t_log s) = pkts.
Proof.
  intros cb evs pkts s r C Ce Hp E R Nq.
  destruct (C42_chunking cb evs pkts s r C Ce Hp E) as (-> & _ & _ & k & Ek & Hk). { exists []. now rewrite R, app_nil_r. }
  split; auto. rewrite Ek. destruct (Hk Nq) as (partial & Er & Hx). rewrite R in Er.
  assert (Es : concat (map e_wire (skipn k pkts)) = partial).
  { rewrite <- (firstn_skipn k pkts) in Er at 1. rewrite map_app, concat_app in Er. now apply app_inv_head in Er. }
  destruct Hx as [[-> L]|(p & x & Np & Ep & Nx)].
  - destruct (skipn k pkts) as [|p tl] eqn:K1; [rewrite <- (firstn_skipn k pkts) at 2; now rewrite K1, app_nil_r|exfalso].
    assert (Ip : In p pkts) by (rewrite <- (firstn_skipn k pkts), K1; apply in_or_app; right; now left).
    rewrite Forall_forall in Hp. destruct (Hp _ Ip) as [(_ & _ & a & b & V & _ & W) _].
    cbn [map concat] in Es. apply app_eq_nil in Es as [Es _]. rewrite W in Es. apply app_eq_nil in Es as [-> _].
    inversion V.
  - exfalso. apply nth_error_split in Np as (l1 & l2 & -> & L).
    rewrite <- L, skipn_app, skipn_all, Nat.sub_diag in Es. cbn [app skipn map concat] in Es. rewrite Ep, <- app_assoc in Es.
    apply (f_equal (@length _)) in Es. rewrite !app_length in Es. destruct x; [congruence|cbn in Es; lia].
Qed.
Print Assumptions C42_all_delivered.

(* Whatever octets the peer sends: the packets delivered are the first elements of the stream, and either the transport is still
   open, with a receive operation with room in the buffer outstanding while it runs, and less than 8800 octets without a complete
   element are left; or a step has closed it and thrown Transport::Error because the 8800 octets that follow the delivered packets
   hold no complete element. *)
Theorem C42_any_stream : forall cb evs s r, calm_cb cb -> Forall calm evs -> trun cb tr_init evs = (s, r) ->
  (r = None /\ ~ thrown (t_log s) /\ t_st s <> CLOSED /\
   (t_st s = RUNNING -> exists off x, t_rds s = [(off, x)] /\ off < 8800 /\ x <> RBad) /\
   exists rest, received (t_log s) = concat (map e_wire (delivered (t_log s))) ++ rest /\
     (~ read_queued s -> nlen rest < 8800 /\ forall p w, is_tlv (e_type p) (e_val p) (e_wire p) -> rest <> e_wire p ++ w)) \/
  exists evs1 e evs2 s1 s2, evs = evs1 ++ e :: evs2 /\ trun cb tr_init evs1 = (s1, None) /\ tstep cb s1 e = (s2, Some ERuntime) /\
    t_st s2 = CLOSED /\ exists rest, received (t_log s2) = concat (map e_wire (delivered (t_log s2))) ++ rest /\ nlen rest = 8800 /\
      forall p w, is_tlv (e_type p) (e_val p) (e_wire p) -> rest <> e_wire p ++ w.
Proof. intros cb evs s r C. apply any_stream; exact C. Qed.
Print Assumptions C42_any_stream.
(* a packet and then the header of an element of 65535 octets with some of its value *)
Example C42_any_stream_ex : exists s, trun nothing tr_init
    [EvCall CResume; EvCall (CSend [x05; x00]); EvConn true; EvConnH; EvRecv 0 (e_wire pkA ++ [x05; xfd; xff; xff]); EvReadH 0;
     EvRecv 0 (repeat x00 (N.to_nat 8796)); EvReadH 0] = (s, None) /\ t_st s = CLOSED /\ thrown (t_log s) /\ delivered (t_log s) = [pkA].
Proof. eexists. split; [vm_compute; reflexivity|]. split; [reflexivity|]. split; [vm_compute; auto 12|vm_compute; reflexivity]. Qed.

(* two packets in three reads that cut both of them, the callback sending each time *)
Example C42_ex : exists s, trun (fun _ => [CSend [x05; x00]]) tr_init
    [EvCall CResume; EvCall (CSend [x05; x00]); EvConn true; EvConnH; EvRecv 0 [x05]; EvReadH 0; EvRecv 0 [x02; x07; x00; x06]; EvReadH 0;
     EvRecv 0 [x01; xff]; EvReadH 0] = (s, None) /\
  received (t_log s) = concat (map e_wire [pkA; pkB]) /\ ~ read_queued s /\ delivered (t_log s) = [pkA; pkB] /\ Forall is_packet [pkA; pkB].
Proof.
  eexists. split; [vm_compute; reflexivity|]. split; [vm_compute; reflexivity|]. split.
  { intros (off & x & I & N). cbn in I. destruct I as [I|[]]. injection I as <- <-. now apply N. }
  split; [vm_compute; reflexivity|]. constructor; [exact pkA_packet|]. constructor; [exact pkB_packet|constructor].
Qed.

(* ---- C43 ----
   in every history, also with pauses, closing, exceptions and errors: what is written is a prefix of the sent packets
   in order, and at most one write is outstanding *)
Theorem C43_prefix : forall cb evs s r, trun cb tr_init evs = (s, r) ->
  (exists rest, concat (sent (t_log s)) = written (t_log s) ++ rest) /\ (length (t_wrs s) <= 1)%nat.
Proof. exact written_prefix. Qed.
Print Assumptions C43_prefix.
(* without pause, close, exceptions and errors, once connected, everything sent gets written as writes make progress *)
Theorem C43_no_stall_partial : forall cb evs pkts s r, calm_cb cb -> Forall calm evs -> Forall is_packet pkts ->
  trun cb tr_init evs = (s, r) -> (exists future, concat (map e_wire pkts) = received (t_log s) ++ future) -> t_st s <> CONNECTING ->
  exists evs' s', Forall write_progress evs' /\ trun cb s evs' = (s', None) /\
    sent (t_log s') = sent (t_log s) /\ written (t_log s') = concat (sent (t_log s')).
Proof. intros cb evs pkts s r C. apply no_stall; exact C. Qed.
Print Assumptions C43_no_stall_partial.
(* missing: pause() aborts the write in progress, and after resume() nothing is ever written again, whatever is sent and whatever happens *)
Theorem C43_refuted_pause : exists evs s, trun nothing tr_init evs = (s, None) /\ t_st s = RUNNING /\
  sent (t_log s) = [e_wire pkA] /\ written (t_log s) = [x05] /\
  forall cb evs' s' r', trun cb s evs' = (s', r') -> written (t_log s') = [x05].
Proof.
  exists [EvCall (CSend (e_wire pkA)); EvConn true; EvConnH; EvXmit 0 1; EvWriteH 0; EvCall CPause; EvCall CResume].
  eexists. split; [vm_compute; reflexivity|]. split; [reflexivity|]. split; [reflexivity|]. split; [reflexivity|].
  intros cb evs' s' r' E. refine (proj1 (Stuck_run cb [x05] _ _ _ _ _ E)).
  unfold Stuck. cbn. splits; auto. left. splits; auto. discriminate.
Qed.
Print Assumptions C43_refuted_pause.
Example C43_ex : exists s, trun nothing tr_init
    [EvCall (CSend (e_wire pkA)); EvCall (CSend (e_wire pkB)); EvConn true; EvConnH; EvXmit 0 3; EvWriteH 0; EvXmit 0 1; EvWriteH 0; EvCall (CSend [x05; x00])] = (s, None) /\
  written (t_log s) = e_wire pkA /\ length (t_wrs s) = 1%nat /\ t_st s = RUNNING /\ length (t_q s) = 2%nat.
Proof. eexists. split; [vm_compute; reflexivity|]. split; [reflexivity|]. split; [reflexivity|]. split; reflexivity. Qed.

(* ---- C64 ----
   pause() while running, no completed receive operation waiting for its handler: until resume() is called the callback
   is not invoked, whatever else happens *)
Theorem C64_paused_partial : forall cb evs s evs' s' r', trun cb tr_init evs = (s, None) -> t_st s = RUNNING -> ~ read_queued s ->
  Forall (fun e => ~ is_call CResume e) evs' ->
  trun cb s (EvCall CPause :: evs') = (s', r') -> delivered (t_log s') = delivered (t_log s).
Proof. exact pause_quiet. Qed.
Print Assumptions C64_paused_partial.
(* if pause() is only called like that, and not from the callback, there is never more than one receive operation on the buffer *)
Theorem C64_one_receive_partial : forall cb evs s r, no_pause_cb cb -> polite cb tr_init evs -> trun cb tr_init evs = (s, r) ->
  (length (t_rds s) <= 1)%nat.
Proof. intros cb evs s r N. now apply one_receive. Qed.
Print Assumptions C64_one_receive_partial.
(* missing: a receive operation that has completed when pause() is called.  The callback is invoked while paused, and after
   resume() two receive operations write to the same place of the buffer. *)
Theorem C64_refuted_paused : exists evs s s1 s2, trun nothing tr_init evs = (s, None) /\ t_st s = RUNNING /\
  trun nothing s [EvCall CPause; EvReadH 0] = (s1, None) /\ t_st s1 = PAUSED /\ delivered (t_log s) = [] /\ delivered (t_log s1) = [pkA] /\
  trun nothing s1 [EvCall CResume] = (s2, None) /\ t_rds s2 = [(0, RWait); (0, RWait)].
Proof.
  exists [EvCall (CSend [x05; x00]); EvConn true; EvConnH; EvRecv 0 (e_wire pkA)].
  eexists. eexists. eexists. split; [vm_compute; reflexivity|]. split; [reflexivity|]. split; [vm_compute; reflexivity|].
  split; [reflexivity|]. split; [reflexivity|]. split; [reflexivity|]. split; [vm_compute; reflexivity|reflexivity].
Qed.
Print Assumptions C64_refuted_paused.
(* pause() and resume() between two reads of one packet: the octets read before are dropped, the packet is never delivered,
   and its rest is taken for the beginning of another packet *)
Theorem C64_refuted_lossless : exists evs s, trun nothing tr_init evs = (s, None) /\ ~ read_queued s /\ t_st s = RUNNING /\ ~ thrown (t_log s) /\
  received (t_log s) = e_wire pkA ++ e_wire pkB /\ polite nothing tr_init evs /\ delivered (t_log s) = [mkElem 7 [x07; x00] []; pkB].
Proof.
  exists [EvCall (CSend [x05; x00]); EvConn true; EvConnH; EvRecv 0 [x05; x02]; EvReadH 0; EvCall CPause; EvCall CResume;
     EvRecv 0 ([x07; x00] ++ e_wire pkB); EvReadH 0].
  eexists. split; [vm_compute; reflexivity|]. split.
  { intros (off & x & I & N). cbn in I. destruct I as [I|[]]. injection I as <- <-. now apply N. }
  split; [reflexivity|]. split. { intro T. cbn in T. repeat (destruct T as [T|T]; [discriminate|]). exact T. }
  split; [reflexivity|]. split; [|vm_compute; reflexivity].
  cbn [polite]. 
  repeat match goal with |- context [tstep nothing ?s ?e] => let v := eval vm_compute in (tstep nothing s e) in change (tstep nothing s e) with v; cbv iota beta; cbn [polite] end.
  splits; try discriminate; auto.
  intros _ (off & x & I & N). cbn in I. destruct I as [I|[]]. injection I as <- <-. now apply N.
Qed.
Print Assumptions C64_refuted_lossless.
Example C64_ex : exists s, trun nothing tr_init [EvCall (CSend [x05; x00]); EvConn true; EvConnH; EvRecv 0 [x05]; EvReadH 0] = (s, None) /\
  t_st s = RUNNING /\ ~ read_queued s /\ t_rds s = [(1, RWait)].
Proof.
  eexists. split; [vm_compute; reflexivity|]. split; [reflexivity|]. split; [|reflexivity].
  intros (off & x & I & N). cbn in I. destruct I as [I|[]]. injection I as <- <-. now apply N.
Qed.

(* ---- C65 ----
   close() with no handler of a completed operation waiting: the transport is closed, and whatever the socket, the timer
   and the io_context do afterwards has no effect *)
Theorem C65_close_partial : forall cb s s' evs, ~ handler_queued s -> tstep cb s (EvCall CClose) = (s', None) -> Forall environment evs ->
  t_st s' = CLOSED /\ delivered (t_log s') = delivered (t_log s) /\ trun cb s' evs = (s', None).
Proof. exact close_inert. Qed.
Print Assumptions C65_close_partial.
(* missing: a receive operation that has completed when close() is called.  The callback is invoked after close(), a receive
   operation is started on the closed socket, and its handler closes the transport again, which is a failed assertion
   (a null pointer dereference with NDEBUG). *)
Theorem C65_refuted_read : exists evs s s1 s2, trun nothing tr_init evs = (s, None) /\
  trun nothing s [EvCall CClose; EvReadH 0] = (s1, None) /\ t_st s1 = CLOSED /\ delivered (t_log s) = [] /\ delivered (t_log s1) = [pkA] /\
  trun nothing s1 [EvReadH 0] = (s2, Some EAssert).
Proof.
  exists [EvCall (CSend [x05; x00]); EvConn true; EvConnH; EvRecv 0 (e_wire pkA)].
  eexists. eexists. eexists. split; [vm_compute; reflexivity|]. split; [vm_compute; reflexivity|].
  split; [reflexivity|]. split; [reflexivity|]. split; [reflexivity|]. vm_compute. reflexivity.
Qed.
Print Assumptions C65_refuted_read.
(* and one that closes while the connection is established: the state leaves CLOSED *)
Theorem C65_refuted_connect : exists s, trun nothing tr_init [EvConn true; EvCall CClose; EvConnH] = (s, None) /\ t_st s = PAUSED.
Proof. eexists. split; [vm_compute; reflexivity|reflexivity]. Qed.
Print Assumptions C65_refuted_connect.
Example C65_ex : exists s s', trun nothing tr_init
    [EvCall (CSend (e_wire pkA)); EvConn true; EvConnH; EvRecv 0 [x05]; EvReadH 0; EvXmit 0 2; EvWriteH 0] = (s, None) /\
  ~ handler_queued s /\ t_rds s = [(1, RWait)] /\ t_wrs s = [([x07; x00], WWait)] /\ tstep nothing s (EvCall CClose) = (s', None).
Proof.
  eexists. eexists. split; [vm_compute; reflexivity|]. split; [|split; [reflexivity|split; [reflexivity|vm_compute; reflexivity]]].
  intros [(off & x & I & N)|[(w & x & I & N)|[H|[H|H]]]]; try discriminate H; cbn in I; destruct I as [I|[]]; injection I as <- <-; now apply N.
Qed.

(* C45, C46, C47: SegmentFetcher. *)
From Coq Require Import ZArith SpecFloat Lia ZifyBool ZifyNat ZifyN.
From Verif Require Import Base BaseLemmas M_Tlv M_Name S_Name P_Name M_Packet S_Packet M_Rtt M_Segmenter S_Segmenter P_Segmenter T_Segmenter.
From Verif Require Import M_Fetcher S_Fetcher P_Fetcher P_FetcherB P_FetcherC S_FetcherNet P_FetcherD.
Open Scope N_scope.

(* A fetch of a three-segment object, used in the examples below *)
Definition ft_seg (i : N) : comp := mkComp 50 None [nb i].
Definition ft_data (i final : N) (c : bytes) : data :=
  mkData (nm_of [mkComp 8 None (str "A"); ft_seg i]) (mkMI 0 0 (Some (ft_seg final)) [] None) (mkComp 21 None c) si_empty blk_invalid None nm_empty.
Definition ft_opts (order : bool) (cwnd : Z) : fopts :=
  mkFopts 60000000000 true order false true false false (dbl cwnd) (dbl 1000) (dbl 0) (fdiv (dbl 1) (dbl 2)) 100.
Definition ft_base : name := nm_of [mkComp 8 None (str "A")].
Definition quietly (l : list fev) : list (fev * (fobs -> bool)) := map (fun e => (e, fun _ => false)) l.

(* C45.  Whatever Data, Nacks, timeouts and validation results arrive, in whatever order, and whatever the handlers do: each buffer
   passed to onInOrderData is the content of a validated Data with the next segment number; the buffer passed to onComplete is the
   concatenation of the contents of validated Data for the segments 0, ..., f, where f is the last segment according to the most recent
   FinalBlockId of a validated Data; and onInOrderComplete is emitted only after the segments 0, ..., f were delivered.
   Assumed: the validated Data with the same segment number have the same size, FinalBlockIds are below 2^63 - 1. *)
Theorem C45_delivered : forall conv dconv o base now l s, fs_fetch conv dconv o base now l = Ok s ->
  same_sizes dconv (validated (fs_log s)) -> small_finals dconv (validated (fs_log s)) -> nlen (fs_log s) < 2 ^ 64 - 1 ->
  forall a t b, fs_log s = a ++ t :: b -> signal_ok dconv a t.
Proof. intros conv dconv o base now l s H SS SF LN a t b E. eapply (fetch_good conv dconv o); eauto. Qed.
Print Assumptions C45_delivered.
Definition ft_ev3 : list fev := [FData 0 (ft_data 1 2 (str "BB")) false; FValid 0 1; FTimer 1 2; FData 2 (ft_data 2 2 (str "C")) true; FValid 1 3;
  FData 3 (ft_data 0 2 (str "A")) false; FValid 2 4]%Z.
Example C45_ex : exists s, fs_fetch TYPED TYPED (ft_opts false 2) ft_base 0 (quietly ft_ev3) = Ok s /\
  same_sizes TYPED (validated (fs_log s)) /\ small_finals TYPED (validated (fs_log s)) /\ nlen (fs_log s) < 2 ^ 64 - 1 /\
  exists a, fs_log s = a ++ [OComplete (str "ABBC"); OStop].
Proof.
  eexists. split; [vm_compute; reflexivity|]. cbn [fs_log validated].
  split. { intros d d' [<-|[<-|[<-|[]]]] [<-|[<-|[<-|[]]]] E; vm_compute in E; try discriminate; reflexivity. }
  split. { intros d f [<-|[<-|[<-|[]]]] E; vm_compute in E; injection E as <-; reflexivity. }
  split; [reflexivity|]. eexists (_ :: _ :: _ :: _ :: _ :: _ :: _ :: _ :: _ :: _ :: _ :: []). reflexivity.
Qed.

(* Combined with Segmenter: if every validated Data is one of the packets of a segmented object (C44), then what is delivered is that object. *)
Theorem C45_published : forall conv dconv o base now l s signer si n f ct segs, fs_fetch conv dconv o base now l = Ok s ->
  segs_ok conv signer si n f ct segs -> can_decode dconv conv = true -> nlen segs < 2 ^ 63 -> nlen (fs_log s) < 2 ^ 64 - 1 ->
  (forall d, In d (validated (fs_log s)) -> In d segs) ->
  (forall b, In (OComplete b) (fs_log s) -> b = concat (map content segs)) /\
  (forall i v, nth_error (delivered (fs_log s)) i = Some v -> nth_error (map content segs) i = Some v) /\
  (In OInOrderComplete (fs_log s) -> concat (delivered (fs_log s)) = concat (map content segs)).
Proof.
  intros conv dconv o base now l s signer si n f ct segs H OK CD LS LN VS.
  destruct (pub_sizes _ dconv _ _ _ _ _ _ OK CD LS _ VS) as [SS SF].
  assert (G : good dconv (fs_log s)) by (intros a t b E; eapply C45_delivered; eauto).
  assert (PRE : forall a b, fs_log s = a ++ b -> forall d, In d (validated a) -> In d segs) by (intros a b E d I; apply VS; rewrite E, validated_app, in_app_iff; auto).
  splits.
  - intros b I. apply in_split in I as (x & y & E). specialize (G _ _ _ E) as (g & cs & LF & LC & -> & K). f_equal.
    eapply pub_all; [exact OK|exact CD|exact LS|eapply PRE; exact E| |exact K]. assert (X : g + 1 = nlen segs) by (eapply pub_final; [exact OK|exact CD|exact LS|eapply PRE; exact E|exact LF]).
    rewrite <- X. apply N.eq_le_incl. symmetry. exact LC.
  - intros i v E. eapply pub_segment; [exact OK|exact CD|exact LS|exact VS|]. eapply good_delivered; eauto.
  - intro I. apply in_split in I as (x & y & E). pose proof (G _ _ _ E) as (g & LF & LD). f_equal.
    eapply pub_all; [exact OK|exact CD|exact LS|exact VS| |intros i c; apply good_delivered; exact G].
    rewrite E, delivered_app, nlen_app. assert (X : g + 1 = nlen segs) by (eapply pub_final; [exact OK|exact CD|exact LS|eapply PRE; exact E|exact LF]). lia.
Qed.
Print Assumptions C45_published.
Example C45_published_ex : exists a b c s, seg_buffer TYPED seg_signer seg_si (str "ABCDE") seg_name 2 1000 0 = Ok [a; b; c] /\
  segs_ok TYPED seg_signer seg_si seg_name 1000 0 [a; b; c] /\
  fs_fetch TYPED TYPED (ft_opts false 2) seg_name 0 (quietly [FData 0 b false; FValid 0 1; FTimer 1 2; FData 2 c true; FValid 1 3; FData 3 a false; FValid 2 4]%Z) = Ok s /\
  (forall d, In d (validated (fs_log s)) -> In d [a; b; c]) /\ In (OComplete (str "ABCDE")) (fs_log s).
Proof.
  do 4 eexists. split; [vm_compute; reflexivity|]. split.
  - assert (A : seg_args_ok seg_name 1000 0 seg_si) by (apply C44_ex).
    destruct (C44_segment_buffer TYPED seg_signer seg_si (str "ABCDE") seg_name 2 1000 0 A ltac:(reflexivity) ltac:(reflexivity)) as [E|(segs & E & S1 & _)].
    + vm_compute in E. discriminate E.
    + vm_compute in E. injection E as <-. exact S1.
  - split; [vm_compute; reflexivity|]. split.
    + cbn [fs_log validated In]. tauto.
    + cbn [fs_log In]. do 11 right. left. reflexivity.
Qed.

(* C46.  A fetch ends with at most one of onComplete, onInOrderComplete and onError; that signal is the last thing that happens. *)
Theorem C46_once : forall conv dconv o base now l s, fs_fetch conv dconv o base now l = Ok s ->
  forall a t b, fs_log s = a ++ t :: b -> terminal t = true -> Forall (fun ob => terminal ob = false) a /\ (b = [] \/ b = [OStop]).
Proof.
  intros conv dconv o base now l s H. unfold fs_fetch in H. destruct (fs_start dconv o base now) as [s0|] eqn:E; cbn [bind] in H; [|discriminate].
  apply start_inv_start in E as [I _]. exact (proj1 (run_once _ _ _ _ _ _ I H)).
Qed.
Print Assumptions C46_once.
(* After a call of stop() nothing happens any more, whatever still arrives. *)
Theorem C46_stop : forall conv dconv o base now l1 hs l2 s1, fs_fetch conv dconv o base now l1 = Ok s1 ->
  exists s, fs_fetch conv dconv o base now (l1 ++ (FStop, hs) :: l2) = Ok s /\ (fs_log s = fs_log s1 \/ fs_log s = fs_log s1 ++ [OStop]).
Proof.
  intros conv dconv o base now l1 hs l2 s1 H. unfold fs_fetch in *. destruct (fs_start dconv o base now) as [s0|]; cbn [bind] in *; [|discriminate].
  rewrite run_app, H. cbn [bind fs_run]. change (fs_step conv dconv o (FStop, hs) s1) with (Ok (fs_stop s1)). cbn [bind].
  destruct (run_stopped conv dconv o l2 (fs_stop s1) (stop_this s1)) as (s & -> & _ & L). exists s. split; auto. rewrite L. unfold fs_stop. destruct (fs_this s1); auto.
Qed.
Print Assumptions C46_stop.
(* The same when stop() is called in a handler of afterSegmentReceived, onComplete, onInOrderComplete or onError *)
Theorem C46_stop_in_handler_partial : forall conv dconv o base now l s, fs_fetch conv dconv o base now l = Ok s ->
  Forall (fun e => forall ob, snd e ob = true -> may_stop ob = true) l -> forall a b, fs_log s = a ++ OStop :: b -> b = [].
Proof.
  intros conv dconv o base now l s H F a b E. unfold fs_fetch in H. destruct (fs_start dconv o base now) as [s0|] eqn:S0; cbn [bind] in H; [|discriminate].
  apply last_inv_start in S0. destruct (run_last _ _ _ _ _ _ F S0 H) as [I1 I2]. destruct (fs_this s) eqn:T.
  - assert (X : In OStop (fs_log s)) by (rewrite E, in_app_iff; right; now left). apply (I1 eq_refl) in X. congruence.
  - destruct (I2 eq_refl) as (c & C & N). rewrite C in E. destruct b as [|x b _] using rev_ind; auto. exfalso.
    replace (a ++ OStop :: b ++ [x]) with ((a ++ OStop :: b) ++ [x]) in E by now rewrite <- app_assoc. apply app_inj_tail in E as [-> _].
    apply N. rewrite in_app_iff. right. now left.
Qed.
Print Assumptions C46_stop_in_handler_partial.
Example C46_ex : exists s, fs_fetch TYPED TYPED (ft_opts true 2) ft_base 0 (quietly (ft_ev3 ++ [FNack 1 50 5; FData 1 (ft_data 0 2 (str "A")) false]%Z)) = Ok s /\
  (exists a, fs_log s = a ++ [OInOrderComplete; OStop]) /\ delivered (fs_log s) = [str "A"; str "BB"; str "C"].
Proof.
  eexists. split; [vm_compute; reflexivity|]. split; [|reflexivity]. eexists (_ :: _ :: _ :: _ :: _ :: _ :: _ :: _ :: _ :: _ :: _ :: _ :: _ :: _ :: []). reflexivity.
Qed.
(* In general it does not hold: with stop() called in the handler of afterSegmentValidated, onComplete is still emitted;
   with stop() called in the handler of afterSegmentNacked (or afterSegmentTimedOut), an assertion fails. *)
Definition stop_at (ob : fobs) (x : fobs) : bool :=
  match ob, x with OValidated _, OValidated _ | ONacked, ONacked | OTimedOut, OTimedOut => true | _, _ => false end.
Theorem C46_stop_in_handler_refuted : exists o base d,
  (exists s a b c, fs_fetch TYPED TYPED o base 0 [(FData 0 d false, fun _ => false); (FValid 0 1, stop_at (OValidated d))] = Ok s /\ fs_log s = a ++ OStop :: b ++ [OComplete c]) /\
  fs_fetch TYPED TYPED o base 0 [(FNack 0 50 1, stop_at ONacked)] = Err EAssert /\
  fs_fetch TYPED TYPED o base 0 [(FTimer 0 1, stop_at OTimedOut)] = Err EAssert.
Proof.
  exists (ft_opts false 2), ft_base, (ft_data 0 0 (str "A")). split.
  - eexists _, [_; _; _], [], _. split; [vm_compute; reflexivity|]. reflexivity.
  - split; vm_compute; reflexivity.
Qed.
Print Assumptions C46_stop_in_handler_refuted.

(* C47 does not hold in general: each of these histories, in which no handler calls stop(), makes an assertion fail.
   (1) Data that arrives after its timer has expired, while the segment waits to be requested again, is counted twice;
   (2) a FinalBlockId that becomes known late: the segments beyond it are counted as in flight although they wait in the queue;
   (3) FinalBlockIds that change: segments still pending are put into the retransmission queue;
   (4) a base Interest whose name ends with a segment number other than 0 that times out;
   (5) an in-order fetch whose first Data is not segment 0: a segment is requested a second time and the fetch is thought to be complete. *)
Definition ft_opts4 : fopts := mkFopts 60000000000 true false false true false false (dbl 4) (dbl 1000) (dbl 0) (fdiv (dbl 1) (dbl 2)) 100.
Definition ft_opts5 : fopts := mkFopts 60000000000 true true false true false false (dbl 1) (dbl 1000) (fdiv (dbl 1) (dbl 2)) (fdiv (dbl 1) (dbl 2)) 100.
Definition ft_noFinal (i : N) : data :=
  mkData (nm_of [mkComp 8 None (str "A"); ft_seg i]) mi_empty (mkComp 21 None (str "x")) si_empty blk_invalid None nm_empty.
Theorem C47_refuted :
  fs_fetch TYPED TYPED ft_opts4 ft_base 0 (quietly [FData 0 (ft_data 0 4 []) false; FValid 0 1; FTimer 1 2; FData 1 (ft_data 1 4 []) false;
    FData 2 (ft_data 2 4 []) false; FData 3 (ft_data 3 4 []) false; FData 4 (ft_data 4 4 []) false]%Z) = Err EAssert /\
  fs_fetch TYPED TYPED ft_opts4 ft_base 0 (quietly [FData 0 (ft_noFinal 0) false; FValid 0 1; FTimer 2 2; FTimer 3 2; FTimer 4 2;
    FData 1 (ft_data 1 1 []) false; FValid 1 3]%Z) = Err EAssert /\
  fs_fetch TYPED TYPED ft_opts4 ft_base 0 (quietly [FData 0 (ft_data 7 9 []) false; FValid 0 1; FData 1 (ft_data 0 1 []) false; FValid 1 1]%Z) = Err EAssert /\
  fs_fetch TYPED TYPED ft_opts4 (nm_of [mkComp 8 None (str "A"); ft_seg 3]) 0 (quietly [FTimer 0 1]%Z) = Err EAssert /\
  fs_fetch TYPED TYPED ft_opts5 ft_base 0 (quietly [FData 0 (ft_data 1 2 []) false; FValid 0 1; FData 1 (ft_data 0 2 []) false; FValid 1 2; FData 2 (ft_data 1 2 []) false; FValid 2 3]%Z) = Err EAssert.
Proof. splits; vm_compute; reflexivity. Qed.
Print Assumptions C47_refuted.

(* What does hold of C47: if the network answers each Interest at most once, with the segments 0, ..., f of one object (polite, S_FetcherNet), the base name does not
   end with a segment number, and the window stays a number between 1 and 2^63, then no assertion fails, whatever is delayed, lost, refused, or answered out of order, and
   as long as the fetch has not ended:
   - the number of segments in flight is the number of requests sent and not answered;
   - some segment of the object has not been validated (so the fetch ends once all of them are);
   - and, unless the flow control window is smaller than the object, a request or a validation is under way: the fetch does not get stuck.
   Missing: Data after its timer has expired, and FinalBlockIds that are absent, late or changing, for which the claim is false. *)
Theorem C47_bookkeeping_partial : forall conv dconv o f base now l, can_decode dconv conv = true -> f < 2 ^ 62 -> fopts_ok o = true -> name_segno dconv base = None ->
  windows_ok o (length l) -> Forall (fun e => forall ob, snd e ob = true -> may_stop ob = true) l ->
  (forall s0, fs_start dconv o base now = Ok s0 -> polite conv dconv o f [] l s0) ->
  exists s0 s, fs_start dconv o base now = Ok s0 /\ fs_fetch conv dconv o base now l = Ok s /\
    (fs_this s = true ->
       fs_infl s = Z.of_nat (outstanding (answered conv dconv o l s0) s) /\
       (exists i, i <= f /\ forall d, In d (validated (fs_log s)) -> segno dconv d <> Some i) /\
       (fo_inOrder o = false \/ f < fo_flowWin o < 2 ^ 63 -> (0 < outstanding (answered conv dconv o l s0) s)%nat \/ validating s)).
Proof.
  intros conv dconv o f base now l CD Hf FO B WO ST PL. destruct (fetch_bookkeeping conv dconv o f base now l CD Hf FO B WO ST PL) as (s0 & s & E0 & E & H).
  exists s0, s. splits; auto. intro T. destruct (H T) as (I & M & BU). splits; auto. intro R. destruct (BU R) as [X|(u & v & d & m & X)].
  - left. lia.
  - right. exists v. eauto.
Qed.
Print Assumptions C47_bookkeeping_partial.
(* the hypotheses are met, with a constant window, by a history with a timeout and a Nack after which two segments are in flight; and the windows stay within bounds *)
Definition ft_opts6 : fopts := mkFopts 60000000000 true false true true false false (dbl 2) (dbl 1000) (dbl 1) (fdiv (dbl 1) (dbl 2)) 100.
Definition ft_ev6 : list fev := [FTimer 0 1; FData 1 (ft_data 1 3 (str "B")) false; FValid 0 2; FNack 2 50 3; FData 3 (ft_data 2 3 (str "C")) true; FValid 1 4]%Z.
Lemma ft_win6 : forall n w t, window_after ft_opts6 n w t -> w = dbl 2.
Proof. induction 1; auto; discriminate. Qed.
Example C47_bookkeeping_ex : fopts_ok ft_opts6 = true /\ name_segno TYPED ft_base = None /\ windows_ok ft_opts6 (length (quietly ft_ev6)) /\
  (forall s0, fs_start TYPED ft_opts6 ft_base 0 = Ok s0 -> polite TYPED TYPED ft_opts6 3 [] (quietly ft_ev6) s0) /\
  exists s0 s, fs_start TYPED ft_opts6 ft_base 0 = Ok s0 /\ fs_fetch TYPED TYPED ft_opts6 ft_base 0 (quietly ft_ev6) = Ok s /\ fs_this s = true /\
    outstanding (answered TYPED TYPED ft_opts6 (quietly ft_ev6) s0) s = 2%nat.
Proof.
  splits; [reflexivity|reflexivity| | |].
  - intros w t H. apply ft_win6 in H. subst. exists 2%Z. split; [reflexivity|lia].
  - intros s0 H. apply politeb_ok. vm_compute in H. injection H as <-. vm_compute. reflexivity.
  - eexists _, _. split; [vm_compute; reflexivity|]. split; [vm_compute; reflexivity|]. split; [reflexivity|]. vm_compute. reflexivity.
Qed.

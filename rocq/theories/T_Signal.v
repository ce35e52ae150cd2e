(* C57: signals call each connected handler once, in order, whatever the handlers do.  Specification: S_Signal. *)
From Coq Require Import List Lia ZifyBool ZifyNat ZifyN.
From Verif Require Import Base BaseLemmas M_Signal S_Signal P_Signal.
Import ListNotations.
Open Scope N_scope.

(* Whatever operations are made and whatever the handlers do in reaction, as long as no operation fails: the handlers called by every
   operation are exactly those of the list specification (on emission, the handlers connected when it starts, in the order they were
   connected, each once), and a Connection says it is connected iff it is in that list. *)
Theorem C57_history : forall l s cs, s_run l sg_new = (s, cs) -> all_returned cs ->
  let (a, called) := a_run l a_new in
  map fst cs = called /\ (forall c, isConnected c s = true <-> In c (map fst (a_conns a))) /\ (sg_isEmpty s = true <-> a_conns a = []) /\ sg_next s = a_next a.
Proof.
  intros l s cs R F. destruct (run_refine l a_new sg_new s cs refines_new R F) as [H C]. destruct (a_run l a_new) as [a called]. cbn [fst snd] in *.
  splits; [exact C|intro c; apply refines_conn; exact H| |apply H]. destruct H as (E & _ & X & _). unfold sg_isEmpty. rewrite X, E. destruct (a_conns a); cbn; split; congruence.
Qed.
Print Assumptions C57_history.

Theorem C57_history_more : forall l1 s1 cs1 l2 s2 cs2, s_run l1 sg_new = (s1, cs1) -> all_returned cs1 -> s_run l2 s1 = (s2, cs2) -> all_returned cs2 ->
  map fst cs2 = snd (a_run l2 (fst (a_run l1 a_new))).
Proof. intros l1 s1 cs1 l2 s2 cs2 R1 F1 R2 F2. destruct (run_refine _ _ _ _ _ refines_new R1 F1) as [H _]. apply (run_refine _ _ _ _ _ H R2 F2). Qed.
Print Assumptions C57_history_more.

(* No operation fails if handlers only connect new handlers and disconnect themselves: no assertion, no invalid iterator. *)
Lemma legal_run : forall l a s s1 cs, refines a s -> legal l a -> s_run l s = (s1, cs) -> all_returned cs.
Proof.
  induction l as [|o l IH]; intros a s s1 cs H L R; cbn [s_run] in R; [injection R as <- <-; constructor|].
  destruct (s_step o s) as [[s2 c] r] eqn:Q. destruct (s_run l s2) as [s3 cs3] eqn:Q2. injection R as <- <-. cbn [legal] in L. destruct L as [Lo Ll].
  assert (r = Ok false).
  { destruct o as [b|d|f]; cbn [s_step] in Q.
    - congruence.
    - unfold sg_disconnect in Q. destruct H as (_ & _ & X & _). rewrite X in Q. destruct (isConnected d s); congruence.
    - destruct H as (E & NX & I). destruct (emit_total f s I) as (s' & tr & t & Q').
      + intros k x Hx. rewrite E in Hx. unfold mk_slots in Hx. rewrite nth_error_map in Hx. destruct (nth_error (a_conns a) k) as [[c0 b0]|] eqn:K; [|discriminate]. injection Hx as <-. apply (Lo k c0 b0 K).
      + rewrite Q' in Q. injection Q as <- <- <-. f_equal. destruct (emit_spec f s s' tr t I Q') as [_ [(T & _)|(T & pre & x & post & EQ & _ & _ & BX & _)]]; [exact T|]. exfalso.
        assert (K : nth_error (sg_slots s) (length pre) = Some x) by (rewrite EQ, nth_error_app2, Nat.sub_diag by lia; reflexivity). rewrite E in K. unfold mk_slots in K. rewrite nth_error_map in K.
        destruct (nth_error (a_conns a) (length pre)) as [[c0 b0]|] eqn:K2; [|discriminate]. apply (Lo _ _ _ K2). apply bthrows_iff. exact BX. }
  subst r. constructor; [reflexivity|]. apply (IH (fst (a_step o a)) s2 s3); auto. apply (step_refine o a s s2 c H Q).
Qed.
Theorem C57_defined : forall l s cs, legal l a_new -> s_run l sg_new = (s, cs) -> all_returned cs.
Proof. intros l s cs L R. exact (legal_run l a_new sg_new s cs refines_new L R). Qed.
Print Assumptions C57_defined.

(* Once a connection is not connected it is never called again. *)
Lemma numbered_ge : forall l n c, In c (map fst (numbered n l)) -> n <= c.
Proof. intros l n c H. rewrite <- mk_ids in H. apply numbered_ids in H. lia. Qed.
Lemma stay_in : forall f l k c, In c (map fst (stay f k l)) -> In c (map fst l).
Proof.
  intro f. induction l as [|[d b] l IH]; intros k c H; [elim H|]. cbn [stay] in H. rewrite map_app, in_app_iff in H. cbn [map fst In]. destruct H as [H|H]; [|right; eapply IH; exact H]. destruct (b || _); [elim H|]. cbn in H. tauto.
Qed.
Lemma a_gone_step : forall o a c, c < a_next a -> ~ In c (map fst (a_conns a)) -> let (a1, cl) := a_step o a in c < a_next a1 /\ ~ In c (map fst (a_conns a1)) /\ ~ In c cl.
Proof.
  intros [b|d|f] a c L N; cbn [a_step a_next a_conns].
  - splits; [lia| |intros []]. rewrite map_app, in_app_iff. cbn. intros [H|[H|[]]]; [contradiction|lia].
  - splits; auto. intro H. apply N. apply in_map_iff in H. destruct H as (p & <- & H). apply filter_In in H. apply in_map. tauto.
  - splits; [lia| |exact N]. rewrite map_app, in_app_iff. intros [H|H]; [apply stay_in in H; contradiction|]. apply numbered_ge in H. lia.
Qed.
Lemma a_gone : forall l a c, c < a_next a -> ~ In c (map fst (a_conns a)) -> ~ In c (concat (snd (a_run l a))).
Proof.
  induction l as [|o l IH]; intros a c L N; [intros []|]. cbn [a_run]. pose proof (a_gone_step o a c L N) as G. destruct (a_step o a) as [a1 cl]. destruct G as (L1 & N1 & C1). specialize (IH a1 c L1 N1).
  destruct (a_run l a1) as [a2 cs]. cbn [snd concat] in *. rewrite in_app_iff. tauto.
Qed.
Theorem C57_gone : forall l1 s1 cs1 c l2 s2 cs2, s_run l1 sg_new = (s1, cs1) -> all_returned cs1 -> c < sg_next s1 -> isConnected c s1 = false ->
  s_run l2 s1 = (s2, cs2) -> all_returned cs2 -> ~ In c (calls cs2) /\ isConnected c s2 = false.
Proof.
  intros l1 s1 cs1 c l2 s2 cs2 R1 F1 L C R2 F2. destruct (run_refine _ _ _ _ _ refines_new R1 F1) as [H1 _]. set (a1 := fst (a_run l1 a_new)) in *.
  destruct (run_refine _ _ _ _ _ H1 R2 F2) as [H2 C2].
  assert (N : ~ In c (map fst (a_conns a1))) by (rewrite <- (refines_conn a1 s1 c H1); congruence). assert (L' : c < a_next a1) by (destruct H1 as (_ & <- & _); exact L).
  split; [unfold calls; rewrite C2; apply a_gone; assumption|]. apply Bool.not_true_is_false. rewrite (refines_conn _ s2 c H2). clearbody a1. clear - N L'. revert a1 N L'. induction l2 as [|o l IH]; intros a N L; [exact N|].
  cbn [a_run]. pose proof (a_gone_step o a c L N) as G. destruct (a_step o a) as [a1 cl]. destruct G as (L1 & N1 & C1). specialize (IH a1 N1 L1). destruct (a_run l a1) as [a2 cs]. exact IH.
Qed.
Print Assumptions C57_gone.

(* A handler connected with connectSingleShot is called at most once. *)
Lemma a_single : forall l a c, c < a_next a -> NoDup (map fst (a_conns a)) -> (forall b, In (c, b) (a_conns a) -> b = true) -> Forall (fun x => x < a_next a) (map fst (a_conns a)) -> (count_occ N.eq_dec (concat (snd (a_run l a))) c <= 1)%nat.
Proof.
  induction l as [|o l IH]; intros a c L ND S1 LT; [cbn; lia|]. cbn [a_run]. destruct o as [b|d|f]; cbn [a_step].
  - set (a1 := mkAsig _ _). specialize (IH a1 c). destruct (a_run l a1) as [a2 cs]. cbn [snd concat app]. apply IH; subst a1; cbn [a_next a_conns]; [lia| | |].
    + rewrite map_app. apply nodup_app; [exact ND|repeat constructor; intros []|]. rewrite Forall_forall in LT. intros x I [<-|[]]. apply LT in I. cbn in I. lia.
    + intros b' I. rewrite in_app_iff in I. destruct I as [I|[I|[]]]; [apply S1; exact I|]. injection I as I _. lia.
    + rewrite map_app. apply Forall_app. split; [eapply Forall_impl; [|exact LT]; cbn; lia|]. constructor; [cbn; lia|constructor].
  - set (a1 := mkAsig _ _). specialize (IH a1 c). destruct (a_run l a1) as [a2 cs]. cbn [snd concat app]. apply IH; subst a1; cbn [a_next a_conns]; auto.
    + clear - ND. induction (a_conns a) as [|x m IHm]; [constructor|]. cbn [filter]. inversion ND; subst. destruct (negb _); [|apply IHm; assumption]. cbn [map]. constructor; [|apply IHm; assumption].
      intro I. apply H1. apply in_map_iff in I. destruct I as (p & E & I). apply filter_In in I. rewrite <- E. apply in_map. tauto.
    + intros b I. apply filter_In in I. apply S1. tauto.
    + rewrite Forall_forall in *. intros x I. apply LT. apply in_map_iff in I. destruct I as (p & <- & I). apply filter_In in I. apply in_map. tauto.
  - set (a1 := mkAsig _ _). pose proof (a_gone l a1 c ltac:(subst a1; cbn [a_next]; lia)) as G. destruct (a_run l a1) as [a2 cs]. cbn [snd concat] in *. rewrite count_occ_app.
    assert (N : ~ In c (map fst (a_conns a1))).
    { subst a1. cbn [a_conns]. rewrite map_app, in_app_iff. intros [I|I]; [|apply numbered_ge in I; lia]. clear - S1 I. revert I. generalize 0%nat. revert S1. induction (a_conns a) as [|[d b] m IHm]; intros S1 k I; [elim I|].
      cbn [stay] in I. rewrite map_app, in_app_iff in I. destruct I as [I|I]; [|apply (IHm (fun b' J => S1 b' (or_intror J)) (S k) I)]. destruct b; [elim I|]. destruct (leaves d (f k)); [elim I|]. destruct I as [I|[]]. cbn in I. subst d. discriminate (S1 false). left. reflexivity. }
    specialize (G N). apply (count_occ_not_In N.eq_dec) in G. rewrite G. pose proof (proj1 (NoDup_count_occ N.eq_dec _) ND c). lia.
Qed.
Theorem C57_single : forall l1 s1 cs1 l2 s2 cs2, s_run l1 sg_new = (s1, cs1) -> all_returned cs1 -> s_run (SConnect true :: l2) s1 = (s2, cs2) -> all_returned cs2 ->
  (count_occ N.eq_dec (calls cs2) (sg_next s1) <= 1)%nat.
Proof.
  intros l1 s1 cs1 l2 s2 cs2 R1 F1 R2 F2. destruct (run_refine _ _ _ _ _ refines_new R1 F1) as [H1 _]. set (a1 := fst (a_run l1 a_new)) in *.
  cbn [s_run s_step] in R2. destruct (s_run l2 (sg_connect true s1)) as [s3 cs3] eqn:R3. injection R2 as <- <-. inversion F2 as [|? ? _ F3]; subst. unfold calls. cbn [map fst concat app].
  destruct (step_refine (SConnect true) a1 s1 _ _ H1 eq_refl) as [H2 _]. destruct (run_refine _ _ _ _ _ H2 R3 F3) as [_ C]. rewrite C.
  destruct H2 as (E & NX & _ & W). cbn [a_step fst] in *. rewrite E in W. unfold wf_ids in W. rewrite mk_ids, NX in W. destruct H1 as (E1 & N1 & _ & W1).
  apply a_single; [cbn [a_next]; lia|apply W| |apply W]. intros b I. cbn [a_conns] in I. rewrite in_app_iff in I. destruct I as [I|[I|[]]]; [|congruence].
  exfalso. destruct W1 as [_ W1]. rewrite E1, mk_ids, Forall_forall in W1. specialize (W1 (sg_next s1) (in_map fst _ _ I)). lia.
Qed.
Print Assumptions C57_single.

(* An exception from a handler passes through the emission; handlers before it were called, those after it were not, those stay connected, and
   the signal can be used again.  This covers histories with earlier exceptions. *)
Theorem C57_throw : forall l s cs f s1 tr, s_run l sg_new = (s, cs) -> no_misuse cs -> sg_emit f s = (s1, tr, Ok true) ->
  exists before x after, map sl_id (sg_slots s) = before ++ x :: after /\ tr = before ++ [x] /\ throws (f (length before)) /\ (forall j, (j < length before)%nat -> ~ throws (f j)) /\
  (forall c, In c after -> isConnected c s1 = isConnected c s) /\
  (forall f2, (forall k c, nth_error (map sl_id (sg_slots s1)) k = Some c -> permitted c (f2 k)) -> exists s2 tr2 t, sg_emit f2 s1 = (s2, tr2, Ok t)).
Proof.
  intros l s cs f s1 tr R F Q. pose proof (run_inv l sg_new s cs inv_new R F) as I. destruct (emit_spec f s s1 tr true I Q) as [I1 [(T & _)|(_ & pre & x & post & EQ & TR & BT & BX & SL)]]; [discriminate|].
  exists (ids pre), (sl_id x), (ids post). unfold ids at 4 5 6. rewrite map_length. splits.
  - rewrite EQ, map_app. reflexivity.
  - rewrite TR. unfold ids. rewrite map_app. reflexivity.
  - apply bthrows_iff. exact BX.
  - intros j Hj C. apply bthrows_iff in C. rewrite (BT j Hj) in C. discriminate.
  - intros c Hc.
    assert (G : forall A y B, wf_ids (A ++ B) y -> In c (ids B) -> existsb (fun x => (sl_id x =? c) && sl_live x) (A ++ B) = existsb (fun x => (sl_id x =? c) && sl_live x) B).
    { intros A y B [W _] J. rewrite existsb_app. replace (existsb _ A) with false; [reflexivity|]. symmetry. apply Bool.not_true_is_false. rewrite existsb_exists. intros (z & Z1 & Z2). apply andb_prop in Z2. destruct Z2 as [Z2 _].
      rewrite ids_app in W. apply N.eqb_eq in Z2. clear - W J Z1 Z2. induction A as [|a A IHA]; [elim Z1|]. cbn [ids map app] in W. inversion W as [|? ? W1 W2]; subst. destruct Z1 as [->|Z1]; [apply W1; apply in_or_app; right; exact J|apply IHA; assumption]. }
    destruct I as [_ W]. destruct I1 as [_ W1]. unfold isConnected. rewrite EQ, SL in *.
    replace (pre ++ x :: post) with ((pre ++ [x]) ++ post) in * by (rewrite <- app_assoc; reflexivity).
    set (nw := mk_slots _) in *. replace (stayS f 0 pre ++ slot_after x (done (f (length pre))) :: post ++ nw) with ((stayS f 0 pre ++ [slot_after x (done (f (length pre)))]) ++ (post ++ nw)) in * by (rewrite <- !app_assoc; reflexivity).
    rewrite (G _ _ _ W Hc). rewrite (G _ _ _ W1) by (rewrite ids_app; apply in_or_app; left; exact Hc). rewrite existsb_app.
    replace (existsb _ nw) with false; [apply Bool.orb_false_r|]. symmetry. apply Bool.not_true_is_false. rewrite existsb_exists. intros (z & Z1 & Z2). apply andb_prop in Z2. destruct Z2 as [Z2 _]. apply N.eqb_eq in Z2.
    destruct W as [_ W]. rewrite Forall_forall in W. specialize (W c ltac:(rewrite ids_app; apply in_or_app; right; exact Hc)). apply (in_map sl_id) in Z1. rewrite Z2 in Z1. apply numbered_ids in Z1. lia.
  - intros f2 P. apply emit_total; [exact I1|]. intros k z Z. apply P. rewrite nth_error_map, Z. reflexivity.
Qed.
Print Assumptions C57_throw.

(* The full claims fail once handlers throw.  (a) A handler that disconnects itself and then throws is called again by the next emission, although its
   Connection says it is not connected; and disconnecting again has no effect. *)
Definition zscript (k : nat) : list act := match k with O => [ADisconnect 0; AThrow] | _ => [] end.
Definition quiet (k : nat) : list act := [].
Theorem C57_throw_refuted : exists l s cs, s_run l sg_new = (s, cs) /\ no_misuse cs /\ 0 < sg_next s /\ isConnected 0 s = false /\ sg_disconnect 0 s = Ok s /\
  exists s2 tr, sg_emit quiet s = (s2, tr, Ok false) /\ In 0 tr.
Proof.
  exists [SConnect false; SEmit zscript]. eexists. eexists. split; [vm_compute; reflexivity|]. split; [repeat constructor; eexists; reflexivity|].
  split; [vm_compute; reflexivity|]. split; [vm_compute; reflexivity|]. split; [vm_compute; reflexivity|]. eexists. eexists. split; [vm_compute; reflexivity|]. left. reflexivity.
Qed.
Print Assumptions C57_throw_refuted.
(* (b) A single-shot handler that throws stays connected and is called again. *)
Theorem C57_single_throw_refuted : exists l s cs, s_run (SConnect true :: l) sg_new = (s, cs) /\ no_misuse cs /\ count_occ N.eq_dec (calls cs) 0 = 2%nat.
Proof.
  exists [SEmit (fun _ => [AThrow]); SEmit quiet]. eexists. eexists. split; [vm_compute; reflexivity|]. split; [repeat constructor; eexists; reflexivity|]. vm_compute. reflexivity.
Qed.
Print Assumptions C57_single_throw_refuted.

(* ScopedConnection: destroying one, or assigning a Connection over it, disconnects the connection it held. *)
Theorem C57_scoped : forall l s cs c, s_run l sg_new = (s, cs) -> all_returned cs ->
  (exists s1, sc_destroy (Some c) s = Ok s1 /\ isConnected c s1 = false /\ forall d, d <> c -> isConnected d s1 = isConnected d s) /\
  sc_destroy None s = Ok s /\
  (forall d, d <> c -> exists a s1, sc_assign (Some d) (Some c) s = Ok (a, s1) /\ isConnected c s1 = false /\ isConnected d s1 = isConnected d s) /\
  (sc_assign (Some c) (Some c) s = Ok (Some c, s)) /\
  sc_destroy (sc_release (Some c)) s = Ok s.
Proof.
  intros l s cs c R F. assert (I : inv s) by (eapply run_inv; [exact inv_new|exact R|eapply Forall_impl; [|exact F]; intros p H; exists false; exact H]).
  assert (X : exists s1, sg_disconnect c s = Ok s1 /\ isConnected c s1 = false /\ forall d, d <> c -> isConnected d s1 = isConnected d s).
  { unfold sg_disconnect. destruct I as [X W]. rewrite X. destruct (isConnected c s) eqn:C; [|exists s; auto]. eexists. split; [reflexivity|].
    assert (G : forall d, isConnected d (mkSig (erase c (sg_slots s)) (sg_next s) false (sg_cur s)) = negb (d =? c) && isConnected d s).
    { intro d. unfold isConnected. cbn [sg_slots]. clear. induction (sg_slots s) as [|x m IH]; [cbn; rewrite Bool.andb_false_r; reflexivity|]. cbn [erase filter existsb].
      destruct (N.eqb_spec (sl_id x) c) as [->|N]; cbn [negb]; [rewrite <- N.eqb_sym in *; fold (erase c m); rewrite IH, (N.eqb_sym c d); destruct (d =? c); reflexivity|].
      cbn [existsb]. fold (erase c m). rewrite IH. destruct (N.eqb_spec (sl_id x) d), (N.eqb_spec d c); subst; try contradiction; cbn; try reflexivity. }
    split; [rewrite G, N.eqb_refl; reflexivity|]. intros d N. rewrite G. destruct (N.eqb_spec d c); [contradiction|reflexivity]. }
  splits; [exact X|reflexivity| |unfold sc_assign, conn_eqb; rewrite N.eqb_refl, Bool.orb_true_r; reflexivity|reflexivity].
  intros d N. unfold sc_assign, conn_eqb. destruct (N.eqb_spec c d); [congruence|]. rewrite Bool.orb_false_r. destruct (isConnected c s) eqn:C; cbn [negb andb].
  - destruct X as (s1 & E & C1 & D1). cbn [conn_disconnect]. rewrite E. cbn [bind]. exists (Some d), s1. auto.
  - destruct (isConnected d s) eqn:D; cbn [negb]; [|exists (Some c), s; auto]. cbn [conn_disconnect]. unfold sg_disconnect. rewrite C. cbn [bind]. exists (Some d), s. auto.
Qed.
Print Assumptions C57_scoped.
(* But move-assigning a ScopedConnection over another does not disconnect the connection the latter held. *)
Theorem C57_scoped_move_refuted : exists l s cs, s_run l sg_new = (s, cs) /\ all_returned cs /\
  let (a, b) := sc_move (Some 0) (Some 1) in exists s1 s2, sc_destroy a s = Ok s1 /\ sc_destroy b s1 = Ok s2 /\ isConnected 0 s2 = true.
Proof.
  exists [SConnect false; SConnect false]. eexists. eexists. split; [vm_compute; reflexivity|]. split; [repeat constructor|]. cbn [sc_move]. eexists. eexists. split; [vm_compute; reflexivity|]. split; vm_compute; reflexivity.
Qed.
Print Assumptions C57_scoped_move_refuted.

(* three handlers; the first disconnects itself and connects another, the second is single-shot, the third connects a single-shot one *)
Definition ex_script (k : nat) : list act := match k with O => [AConnect false; ADisconnect 0] | 2%nat => [AConnect true] | _ => [] end.
Definition ex_hist : list sop := [SConnect false; SConnect true; SConnect false; SEmit ex_script; SEmit quiet; SDisconnect 2; SEmit quiet].
Example C57_ex_legal : legal ex_hist a_new.
Proof.
  cbn. splits; auto.
  - intros [|[|[|k]]] c b H; cbn in H; try (destruct k; discriminate); injection H as <- <-; (split; [|intro T; cbn in T; intuition discriminate]); unfold permitted; cbn; repeat constructor.
  - intros k c b _. split; [constructor|intros []].
  - intros k c b _. split; [constructor|intros []].
Qed.
Example C57_ex : map fst (snd (s_run ex_hist sg_new)) = [[]; []; []; [0; 1; 2]; [2; 3; 4]; []; [3]].
Proof. vm_compute. reflexivity. Qed.

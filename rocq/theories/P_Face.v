(* Proofs about Face. *)
From Coq Require Import Lia ZifyBool ZifyNat ZifyN Sorting.Sorted Permutation.
From Verif Require Import Base BaseLemmas S_Name M_Ims S_Ims P_Ims M_Face S_Face.

Definition ids (l : list pend) : list N := map f_id l.
Definition cbid (e : fev) : option N := match e with EvCbData i _ | EvCbNack i _ | EvCbTimeout i => Some i | _ => None end.
Fixpoint cbs (l : list fev) : list N := match l with [] => [] | e :: l' => match cbid e with Some i => i :: cbs l' | None => cbs l' end end.
Lemma answers_cbid : forall id e, answers id e <-> cbid e = Some id.
Proof.
  intros id e; split.
  - intros [(d & ->)|[(r & ->)| ->]]; reflexivity.
  - destruct e; cbn; intro H; try discriminate; injection H as ->; unfold answers; eauto.
Qed.
Lemma cbs_app : forall a b, cbs (a ++ b) = cbs a ++ cbs b.
Proof. induction a as [|e a IH]; intro b; cbn; [reflexivity|]. destruct (cbid e); rewrite IH; reflexivity. Qed.
Lemma cbs_in : forall id l, In id (cbs l) <-> exists e, In e l /\ answers id e.
Proof.
  induction l as [|e l IH]; cbn.
  - split; [intros [] | intros (e & [] & _)].
  - split.
    + intro H. destruct (cbid e) as [i|] eqn:E.
      * destruct H as [->|H]; [exists e; split; [auto | apply answers_cbid; exact E]|]. apply IH in H. destruct H as (x & A & B). exists x; auto.
      * apply IH in H. destruct H as (x & A & B). exists x; auto.
    + intros (x & [<-|A] & B).
      * apply answers_cbid in B. rewrite B. left; reflexivity.
      * assert (In id (cbs l)) by (apply IH; exists x; auto). destruct (cbid e); [right|]; auto.
Qed.

Definition psorted (l : list pend) : Prop := StronglySorted (fun a b => f_id a < f_id b) l.
Lemma psorted_cons : forall e l, psorted (e :: l) <-> psorted l /\ forall x, In x l -> f_id e < f_id x.
Proof. intros; split; [intro H; inversion H; subst; rewrite Forall_forall in *; auto | intros [A B]; constructor; auto; apply Forall_forall; auto]. Qed.
Lemma psorted_inj : forall l a b, psorted l -> In a l -> In b l -> f_id a = f_id b -> a = b.
Proof.
  induction l as [|e l IH]; intros a b P Ha Hb E; [destruct Ha|]. apply psorted_cons in P. destruct P as [P F].
  destruct Ha as [<-|Ha], Hb as [<-|Hb]; auto; [specialize (F _ Hb) | specialize (F _ Ha)]; lia.
Qed.
(* a list whose entries come, in order and with their ids, from a sorted one *)
Lemma psorted_sub : forall (f : pend -> option pend) l, psorted l -> (forall e e', f e = Some e' -> f_id e' = f_id e) ->
  psorted (flat_map (fun e => match f e with Some e' => [e'] | None => [] end) l).
Proof.
  induction l as [|e l IH]; intros P H; cbn; [constructor|]. apply psorted_cons in P. destruct P as [P F].
  destruct (f e) as [e'|] eqn:E; cbn; [|auto]. apply psorted_cons; split; [auto|]. intros x Hx. apply in_flat_map in Hx. destruct Hx as (y & A & B).
  destruct (f y) as [y'|] eqn:Ey; [|destruct B]. destruct B as [<-|[]]. rewrite (H _ _ E), (H _ _ Ey). auto.
Qed.
Lemma psorted_filter : forall f l, psorted l -> psorted (filter f l).
Proof.
  induction l as [|e l IH]; intro P; cbn; [constructor|]. apply psorted_cons in P. destruct P as [P F]. destruct (f e); [|auto].
  apply psorted_cons; split; [auto|]. intros x Hx. apply (filter_In f) in Hx. apply F; tauto.
Qed.
Lemma psorted_map : forall f l, (forall e, f_id (f e) = f_id e) -> psorted l -> psorted (map f l).
Proof.
  intros f l H. induction l as [|e l IH]; intro P; cbn; [constructor|]. apply psorted_cons in P. destruct P as [P F]. apply psorted_cons; split; [auto|].
  intros x Hx. apply in_map_iff in Hx. destruct Hx as (y & <- & Hy). rewrite !H. auto.
Qed.

Lemma pit_put_ok : forall e l, psorted l -> ~ In (f_id e) (ids l) ->
  exists l', pit_put e l = Ok l' /\ psorted l' /\ forall x, In x l' <-> x = e \/ In x l.
Proof.
  induction l as [|x l IH]; intros P N; cbn [pit_put].
  - eexists; splits; [reflexivity| |].
    + apply psorted_cons; split; [constructor | intros ? []].
    + intro x; split; intros H; [destruct H as [<-|[]]; auto | destruct H as [->|[]]; left; reflexivity].
  - apply psorted_cons in P. destruct P as [P F]. cbn in N. destruct (f_id e <? f_id x) eqn:E1.
    + eexists; splits; [reflexivity| |].
      * apply psorted_cons; split; [apply psorted_cons; auto|]. intros y [<-|Hy]; [lia|]. specialize (F _ Hy). lia.
      * intro y; split; intros H; [destruct H as [<-|H]; auto | destruct H as [->|H]; [left; reflexivity | right; exact H]].
    + destruct (f_id e =? f_id x) eqn:E2; [exfalso; apply N; left; lia|].
      destruct IH as (l' & A & B & C); auto. rewrite A. cbn [bind]. eexists; splits; [reflexivity| |].
      * apply psorted_cons; split; [exact B|]. intros y Hy. apply C in Hy. destruct Hy as [->|Hy]; [lia | auto].
      * intro y; split; intros H.
        -- destruct H as [<-|H]; [right; left; reflexivity|]. apply C in H. destruct H; auto. right; right; auto.
        -- destruct H as [->|[<-|H]]; [right; apply C; auto | left; reflexivity | right; apply C; auto].
Qed.

(* ---------- Data ---------- *)
Definition appHit (d : pkt) (e : pend) : bool := q_matches (f_q e) d && match f_origin e with APP => true | _ => false end.
Definition fwdHit (d : pkt) (e : pend) : bool := q_matches (f_q e) d && match f_origin e with FORWARDER => true | _ => false end.
Lemma satisfy_events : forall d l k, exists m, sa_ev (satisfy d k l) = firstn m (map (fun e => EvCbData (f_id e) d) (filter (appHit d) l)) /\
  (sa_thr (satisfy d k l) = false -> (length (filter (appHit d) l) <= m)%nat).
Proof.
  intros d. induction l as [|e l IH]; intros k; cbn [satisfy].
  - exists 0%nat. split; [reflexivity | auto].
  - assert (AH : appHit d e = q_matches (f_q e) d && match f_origin e with APP => true | _ => false end) by reflexivity.
    cbn [filter]. rewrite AH. clear AH. destruct (q_matches (f_q e) d) eqn:E; cbn [negb andb].
    + destruct (f_origin e) eqn:O.
      * destruct (now k).
        -- exists 1%nat. cbn. split; [reflexivity | discriminate].
        -- destruct (IH (dec k)) as (m & A & B). exists (S m). cbn. rewrite A. split; [reflexivity|]. intro H. specialize (B H). lia.
      * destruct (IH k) as (m & A & B). exists m. cbn. split; assumption.
    + destruct (IH k) as (m & A & B). exists m. cbn. split; assumption.
Qed.
Lemma satisfy_nothrow : forall d l k, sa_thr (satisfy d k l) = false ->
  sa_pit (satisfy d k l) = filter (fun e => negb (q_matches (f_q e) d)) l /\
  sa_ev (satisfy d k l) = map (fun e => EvCbData (f_id e) d) (filter (appHit d) l) /\
  sa_app (satisfy d k l) = existsb (appHit d) l /\ sa_fwd (satisfy d k l) = existsb (fwdHit d) l.
Proof.
  intros d l k T. destruct (satisfy_events d l k) as (m & A & B). rewrite A, firstn_all2 by (rewrite map_length; apply B; exact T).
  clear A B. revert k T. induction l as [|e l IH]; intros k T; cbn [satisfy] in *; [splits; reflexivity|].
  assert (AH : appHit d e = q_matches (f_q e) d && match f_origin e with APP => true | _ => false end) by reflexivity.
  assert (FH : fwdHit d e = q_matches (f_q e) d && match f_origin e with FORWARDER => true | _ => false end) by reflexivity.
  cbn [filter existsb]. rewrite AH, FH. clear AH FH. destruct (q_matches (f_q e) d) eqn:E; cbn [negb andb orb] in *.
  - destruct (f_origin e) eqn:O.
    + destruct (now k); [discriminate|]. cbn in T. destruct (IH (dec k) T) as (A & B & C & D). cbn. splits; auto.
    + cbn in T. destruct (IH k T) as (A & B & C & D). cbn. splits; auto.
  - cbn in T. destruct (IH k T) as (A & B & C & D). cbn. splits; auto. f_equal; exact A.
Qed.
Lemma satisfy_throw : forall d l, sa_thr (satisfy d None l) = false.
Proof. induction l as [|e l IH]; cbn; [reflexivity|]. destruct (q_matches _ _); cbn; [destruct (f_origin e)|]; exact IH. Qed.
Lemma satisfy_ids : forall d l k x, In x (sa_pit (satisfy d k l)) -> In x l.
Proof.
  induction l as [|e l IH]; intros k x; cbn [satisfy]; [auto|]. destruct (q_matches (f_q e) d); cbn [negb].
  - destruct (f_origin e); [destruct (now k); cbn; [auto | intro H; right; eapply IH; exact H] | cbn; intro H; right; eapply IH; exact H].
  - cbn. intros [<-|H]; [auto | right; eapply IH; exact H].
Qed.
Lemma satisfy_sorted : forall d l k, psorted l -> psorted (sa_pit (satisfy d k l)).
Proof.
  induction l as [|e l IH]; intros k P; cbn [satisfy]; [constructor|]. assert (P' := P). apply psorted_cons in P. destruct P as [P F].
  destruct (q_matches (f_q e) d); cbn [negb].
  - destruct (f_origin e); [destruct (now k); cbn; auto | cbn; auto].
  - cbn. apply psorted_cons; split; [auto|]. intros x Hx. apply F. eapply satisfy_ids; exact Hx.
Qed.
Lemma satisfy_cbs : forall d l k i, In i (cbs (sa_ev (satisfy d k l))) -> exists e, In e l /\ f_id e = i /\ f_origin e = APP.
Proof.
  intros d l k i H. destruct (satisfy_events d l k) as (m & A & _). rewrite A in H. apply cbs_in in H. destruct H as (ev & B & C).
  assert (D : In ev (map (fun e => EvCbData (f_id e) d) (filter (appHit d) l))) by (rewrite <- (firstn_skipn m); apply in_or_app; auto).
  apply in_map_iff in D. destruct D as (e & <- & D). apply (filter_In (appHit d)) in D. destruct D as [D E].
  apply answers_cbid in C. injection C as C. unfold appHit in E. apply andb_true_iff in E. destruct E as [_ E].
  exists e. splits; auto. destruct (f_origin e); [reflexivity | discriminate].
Qed.
Lemma satisfy_once : forall d l k, psorted l -> NoDup (cbs (sa_ev (satisfy d k l))) /\
  (sa_thr (satisfy d k l) = false -> forall i, In i (cbs (sa_ev (satisfy d k l))) -> ~ In i (ids (sa_pit (satisfy d k l)))).
Proof.
  induction l as [|e l IH]; intros k P; cbn [satisfy]; [split; [constructor | intros _ i []]|].
  assert (P' := P). apply psorted_cons in P. destruct P as [P F].
  assert (ne : forall k' i, In i (cbs (sa_ev (satisfy d k' l))) -> i <> f_id e).
  { intros k' i Hi. apply satisfy_cbs in Hi. destruct Hi as (x & A & <- & _). specialize (F _ A). lia. }
  assert (ni : forall k', ~ In (f_id e) (ids (sa_pit (satisfy d k' l)))).
  { intros k' H. apply in_map_iff in H. destruct H as (x & A & B). apply satisfy_ids in B. specialize (F _ B). lia. }
  destruct (q_matches (f_q e) d); cbn [negb].
  - destruct (f_origin e).
    + destruct (now k); cbn; [split; [constructor; [intros [] | constructor] | discriminate]|].
      destruct (IH (dec k) P) as [A B]. split.
      * constructor; [intro H; exact (ne _ _ H eq_refl) | exact A].
      * intros T i [<-|Hi]; [apply ni | exact (B T i Hi)].
    + cbn. exact (IH k P).
  - cbn. destruct (IH k P) as [A B]. split; [exact A|]. intros T i Hi [X|X]; [exact (ne _ _ Hi (eq_sym X)) | exact (B T i Hi X)].
Qed.

(* ---------- Nacks ---------- *)
Lemma q_eqb_eq : forall a b, q_eqb a b = true <-> a = b.
Proof.
  intros [n c m] [n' c' m']. unfold q_eqb. cbn. rewrite !andb_true_iff, names_eqb_eq, !eqb_true_iff.
  split; [intros [[-> ->] ->]; reflexivity | intro H; injection H; auto].
Qed.
Lemma recordNack_id : forall r e e' o, recordNack r e = Ok (e', o) -> f_id e' = f_id e /\ f_q e' = f_q e /\ f_origin e' = f_origin e.
Proof. intros r e e' o H. unfold recordNack in H. destruct (_ <? _)%Z; [discriminate|]. injection H as <- _. auto. Qed.
Lemma nack_ids : forall q r l k x, nackPend q r k l = Ok x -> forall y, In y (na_pit x) ->
  exists e, In e l /\ f_id y = f_id e /\ f_q y = f_q e /\ f_origin y = f_origin e.
Proof.
  intros q r. induction l as [|e l IH]; intros k x H y Hy; cbn [nackPend] in H.
  - injection H as <-. destruct Hy.
  - assert (tl : forall k' x', nackPend q r k' l = Ok x' -> In y (na_pit x') -> exists e0, In e0 (e :: l) /\ f_id y = f_id e0 /\ f_q y = f_q e0 /\ f_origin y = f_origin e0).
    { intros k' x' A B. destruct (IH k' x' A y B) as (e0 & C & D). exists e0. split; [right; exact C | exact D]. }
    destruct (q_eqb q (f_q e)) eqn:Q; cbn [negb] in H.
    + destruct (recordNack r e) as [[e' o]|] eqn:RN; cbn [bind fst snd] in H; [|discriminate]. pose proof (recordNack_id _ _ _ _ RN) as (I1 & I2 & I3).
      destruct o as [least|].
      * destruct (f_origin e) eqn:OR.
        -- destruct (now k).
           ++ injection H as <-. cbn in Hy. destruct Hy as [<-|Hy]; [exists e; splits; auto; [left; reflexivity|congruence] | exists y; splits; auto; right; exact Hy].
           ++ destruct (nackPend q r (dec k) l) as [x'|] eqn:NX; cbn [bind] in H; [|discriminate]. injection H as <-. exact (tl _ _ NX Hy).
        -- destruct (nackPend q r k l) as [x'|] eqn:NX; cbn [bind] in H; [|discriminate]. injection H as <-. exact (tl _ _ NX Hy).
      * destruct (nackPend q r k l) as [x'|] eqn:NX; cbn [bind] in H; [|discriminate]. injection H as <-. cbn in Hy.
        destruct Hy as [<-|Hy]; [exists e; splits; auto; left; reflexivity | exact (tl _ _ NX Hy)].
    + destruct (nackPend q r k l) as [x'|] eqn:NX; cbn [bind] in H; [|discriminate]. injection H as <-. cbn in Hy.
      destruct Hy as [<-|Hy]; [exists e; splits; auto; left; reflexivity | exact (tl _ _ NX Hy)].
Qed.
(* the events, each from an entry whose last awaited Nack this is *)
Definition nackHit (q : qint) (r : N) (e : pend) (least : N) : Prop :=
  f_q e = q /\ f_origin e = APP /\ exists e', recordNack r e = Ok (e', Some least).
Lemma nack_spec : forall q r l k x, nackPend q r k l = Ok x -> psorted l ->
  psorted (na_pit x) /\
  (forall ev, In ev (na_ev x) -> exists e least, In e l /\ ev = EvCbNack (f_id e) least /\ nackHit q r e least) /\
  NoDup (cbs (na_ev x)) /\
  (na_thr x = false ->
    (forall y, In y (na_pit x) <-> exists e, In e l /\ ((f_q e <> q /\ y = e) \/ (f_q e = q /\ recordNack r e = Ok (y, None)))) /\
    (forall e least, In e l -> nackHit q r e least -> In (EvCbNack (f_id e) least) (na_ev x)) /\
    (forall i, In i (cbs (na_ev x)) -> ~ In i (ids (na_pit x)))).
Proof.
  intros q r. induction l as [|e l IH]; intros k x H P; cbn [nackPend] in H.
  - injection H as <-. cbn. splits; [constructor | intros ? [] | constructor |]. intros _. splits; [|intros ? ? []|intros ? []].
    intro y; split; [intros [] | intros (e & [] & _)].
  - apply psorted_cons in P. destruct P as [P F].
    assert (low : forall k' x' y, nackPend q r k' l = Ok x' -> In y (na_pit x') -> f_id e < f_id y).
    { intros k' x' y A B. destruct (nack_ids _ _ _ _ _ A _ B) as (e0 & C & -> & _). auto. }
    assert (cb : forall k' x' i, nackPend q r k' l = Ok x' -> In i (cbs (na_ev x')) -> f_id e < i).
    { intros k' x' i A B. apply cbs_in in B. destruct B as (ev & B & C). destruct (IH k' x' A P) as (_ & D & _).
      destruct (D _ B) as (e0 & least & E1 & -> & _). apply answers_cbid in C. injection C as <-. auto. }
    destruct (q_eqb q (f_q e)) eqn:Q; cbn [negb] in H.
    + apply q_eqb_eq in Q. symmetry in Q.
      destruct (recordNack r e) as [[e' o]|] eqn:RN; cbn [bind fst snd] in H; [|discriminate]. pose proof (recordNack_id _ _ _ _ RN) as (I1 & I2 & I3).
      destruct o as [least|].
      * assert (notpit : forall e1 y, recordNack r e1 = Ok (y, None) -> e1 = e -> False) by (intros e1 y A ->; rewrite RN in A; discriminate).
        destruct (f_origin e) eqn:OR.
        -- destruct (now k).
           ++ injection H as <-. cbn. splits; [| | |discriminate].
              ** apply psorted_cons; split; [exact P|]. rewrite I1. exact F.
              ** intros ev [<-|[]]. exists e, least. splits; auto. unfold nackHit. splits; auto. exists e'; exact RN.
              ** constructor; [intros [] | constructor].
           ++ destruct (nackPend q r (dec k) l) as [x'|] eqn:NX; cbn [bind] in H; [|discriminate]. injection H as <-. cbn.
              destruct (IH _ _ NX P) as (A & B & C & D). splits; auto.
              ** intros ev [<-|Hev]; [exists e, least; splits; auto; unfold nackHit; splits; auto; exists e'; exact RN|].
                 destruct (B _ Hev) as (e0 & l0 & E1 & E2 & E3). exists e0, l0; auto.
              ** constructor; [|exact C]. intro X. specialize (cb _ _ _ NX X). lia.
              ** intro T. destruct (D T) as (D1 & D2 & D3). splits.
                 --- intro y. rewrite D1. split; [intros (e0 & E1 & E2); exists e0; auto | intros (e0 & [<-|E1] & [[E2 E3]|[E2 E3]]); [congruence | exfalso; eauto | exists e0; auto | exists e0; auto]].
                 --- intros e0 l0 [<-|E1] E2; [left | right; auto]. destruct E2 as (_ & _ & e2 & E2). rewrite RN in E2. injection E2 as _ ->. reflexivity.
                 --- intros i [<-|Hi]; [|exact (D3 i Hi)]. intro X. apply in_map_iff in X. destruct X as (y & X1 & X2). specialize (low _ _ _ NX X2). lia.
        -- destruct (nackPend q r k l) as [x'|] eqn:NX; cbn [bind] in H; [|discriminate]. injection H as <-. cbn.
           destruct (IH _ _ NX P) as (A & B & C & D). splits; auto.
           ++ intros ev Hev. destruct (B _ Hev) as (e0 & l0 & E1 & E2 & E3). exists e0, l0; auto.
           ++ intro T. destruct (D T) as (D1 & D2 & D3). splits; auto.
              ** intro y. rewrite D1. split; [intros (e0 & E1 & E2); exists e0; auto | intros (e0 & [<-|E1] & [[E2 E3]|[E2 E3]]); [congruence | exfalso; eauto | exists e0; auto | exists e0; auto]].
              ** intros e0 l0 [<-|E1] E2; [|auto]. destruct E2 as (_ & E2 & _). congruence.
      * destruct (nackPend q r k l) as [x'|] eqn:NX; cbn [bind] in H; [|discriminate]. injection H as <-. cbn.
        destruct (IH _ _ NX P) as (A & B & C & D). splits; auto.
        -- apply psorted_cons; split; [exact A|]. intros y Hy. rewrite I1. exact (low _ _ _ NX Hy).
        -- intros ev Hev. destruct (B _ Hev) as (e0 & l0 & E1 & E2 & E3). exists e0, l0; auto.
        -- intro T. destruct (D T) as (D1 & D2 & D3). splits.
           ++ intro y. split.
              ** intros [<-|Hy]; [exists e; auto|]. apply D1 in Hy. destruct Hy as (e0 & E1 & E2). exists e0; auto.
              ** intros (e0 & [<-|E1] & E2).
                 --- destruct E2 as [[E2 _]|[_ E2]]; [congruence|]. rewrite RN in E2. injection E2 as ->. auto.
                 --- right. apply D1. exists e0; auto.
           ++ intros e0 l0 [<-|E1] E2; [|auto]. destruct E2 as (_ & _ & e2 & E2). rewrite RN in E2. discriminate.
           ++ intros i Hi [X|X]; [|exact (D3 i Hi X)]. specialize (cb _ _ _ NX Hi). lia.
    + assert (Q' : f_q e <> q) by (intro X; apply not_true_iff_false in Q; apply Q, q_eqb_eq; auto).
      destruct (nackPend q r k l) as [x'|] eqn:NX; cbn [bind] in H; [|discriminate]. injection H as <-. cbn.
      destruct (IH _ _ NX P) as (A & B & C & D). splits; auto.
      * apply psorted_cons; split; [exact A|]. intros y Hy. exact (low _ _ _ NX Hy).
      * intros ev Hev. destruct (B _ Hev) as (e0 & l0 & E1 & E2 & E3). exists e0, l0; auto.
      * intro T. destruct (D T) as (D1 & D2 & D3). splits.
        -- intro y. split.
           ++ intros [<-|Hy]; [exists e; auto|]. apply D1 in Hy. destruct Hy as (e0 & E1 & E2). exists e0; auto.
           ++ intros (e0 & [<-|E1] & E2); [destruct E2 as [[_ ->]|[E2 _]]; [auto | congruence]|]. right. apply D1. exists e0; auto.
        -- intros e0 l0 [<-|E1] E2; [|auto]. destruct E2 as (E2 & _). congruence.
        -- intros i Hi [X|X]; [|exact (D3 i Hi X)]. specialize (cb _ _ _ NX Hi). lia.
Qed.

(* ---------- dispatch ---------- *)
Lemma fl_matches_iff : forall f o n, fl_matches f o n = true <-> for_filter f o n.
Proof.
  intros f o n. unfold fl_matches, for_filter. rewrite !andb_true_iff, prefixb_iff. unfold is_prefix. split.
  - intros [[A (t & ->)] C]. split; [intros ->; exact A|]. exists t. split; [reflexivity|]. intros r E. rewrite E in C.
    rewrite skipn_app, skipn_all, Nat.sub_diag in C. exact C.
  - intros [A (t & -> & C)]. splits; [destruct o; auto | exists t; reflexivity|]. destruct (fl_regex f) as [r|]; [|reflexivity].
    rewrite skipn_app, skipn_all, Nat.sub_diag. cbn. apply C; reflexivity.
Qed.
Lemma dispatch_spec : forall id o n l k, exists m,
  let ev := firstn m (map (fun x => EvFilter (fst x) id) (filter (fun x => fl_matches (snd x) o n) l)) in
  snd (fst (dispatch id o n k l)) = ev /\ fst (fst (dispatch id o n k l)) = N.of_nat (length ev) /\
  (snd (dispatch id o n k l) = false -> (length (filter (fun x => fl_matches (snd x) o n) l) <= m)%nat).
Proof.
  intros id o n. induction l as [|[fid f] l IH]; intro k; cbn [dispatch].
  - exists 0%nat. cbn. auto.
  - cbn [filter snd]. destruct (fl_matches f o n) eqn:E.
    + destruct (now k).
      * exists 1%nat. cbn. splits; auto. discriminate.
      * destruct (IH (dec k)) as (m & A & B & C). destruct (dispatch id o n (dec k) l) as [[c ev] t]. cbn [fst snd] in *.
        exists (S m). cbn [map firstn length]. rewrite <- A. splits; [reflexivity | rewrite B, <- A; lia | intro T; specialize (C T); cbn; lia].
    + destruct (IH k) as (m & A & B & C). exists m. auto.
Qed.
Lemma dispatch_throw : forall id o n l, snd (dispatch id o n None l) = false.
Proof.
  induction l as [|[fid f] l IH]; cbn [dispatch]; [reflexivity|]. destruct (fl_matches f o n); [|exact IH]. cbn [now dec].
  destruct (dispatch id o n None l) as [[c ev] t]. exact IH.
Qed.
Lemma dispatch_ev : forall id o n l k ev, In ev (snd (fst (dispatch id o n k l))) -> exists fid, ev = EvFilter fid id.
Proof.
  intros id o n l k ev H. destruct (dispatch_spec id o n l k) as (m & A & _). cbn in A. rewrite A in H.
  assert (D : In ev (map (fun x => EvFilter (fst x) id) (filter (fun x => fl_matches (snd x) o n) l))) by (rewrite <- (firstn_skipn m); apply in_or_app; auto).
  apply in_map_iff in D. destruct D as (x & <- & _). eexists; reflexivity.
Qed.
Lemma dispatch_dests : forall id o n l k, dests id (snd (fst (dispatch id o n k l))) = N.to_nat (fst (fst (dispatch id o n k l))).
Proof.
  intros id o n l k. destruct (dispatch_spec id o n l k) as (m & A & B & _). cbn in A, B. rewrite B, <- A, Nat2N.id. unfold dests.
  assert (X : forall ev, In ev (snd (fst (dispatch id o n k l))) -> is_dest id ev = true).
  { intros ev Hev. apply dispatch_ev in Hev. destruct Hev as (fid & ->). cbn. apply N.eqb_refl. }
  induction (snd (fst (dispatch id o n k l))) as [|ev l0 IH] in X |- *; cbn; [reflexivity|]. rewrite (X ev) by (left; reflexivity). cbn. f_equal.
  apply IH. intros; apply X; right; auto.
Qed.
Lemma dispatch_cbs : forall id o n l k, cbs (snd (fst (dispatch id o n k l))) = [].
Proof.
  intros id o n l k. destruct (cbs _) as [|i r] eqn:E; [reflexivity|]. exfalso.
  assert (H : In i (cbs (snd (fst (dispatch id o n k l))))) by (rewrite E; left; reflexivity).
  apply cbs_in in H. destruct H as (ev & A & B). apply dispatch_ev in A. destruct A as (fid & ->). apply answers_cbid in B. discriminate.
Qed.

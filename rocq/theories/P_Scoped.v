(* Proofs about scoped handles. *)
From Coq Require Import Lia ZifyBool ZifyN Permutation.
From Verif Require Import Base BaseLemmas M_Scoped S_Scoped.
Open Scope list_scope.
Open Scope N_scope.

Lemma get_del : forall m h g, mget (mdel m h) g = if g =? h then None else mget m g.
Proof.
  intros m h g. unfold mget, mdel. induction m as [|[k v] m IH]; cbn [filter find fst]; [now destruct (g =? h)|].
  destruct (k =? h) eqn:A; cbn [negb find fst].
  - rewrite IH. destruct (g =? h) eqn:B; [reflexivity|]. now replace (k =? g) with false by lia.
  - destruct (k =? g) eqn:B; [now replace (g =? h) with false by lia|exact IH].
Qed.
Lemma get_put : forall m h v g, mget (mput m h v) g = if g =? h then Some v else mget m g.
Proof.
  intros m h v g. transitivity (if h =? g then Some v else mget (mdel m h) g); [unfold mput, mget; cbn [find fst]; now destruct (h =? g)|].
  rewrite get_del. destruct (g =? h) eqn:A; [now replace (h =? g) with true by lia|now replace (h =? g) with false by lia].
Qed.
Definition held (m : mem) : list N := flat_map (fun x => opt1 (snd x)) m.
Lemma keys_del : forall m h, NoDup (map fst m) -> NoDup (map fst (mdel m h)).
Proof.
  intros m h N. induction m as [|[k v] m IH]; [constructor|]. inversion N; subst. cbn [mdel filter fst]. destruct (negb (k =? h)); [|now apply IH]. cbn [map fst]. constructor; [|now apply IH].
  intro I. apply H1. apply in_map_iff in I as (x & E & I). apply filter_In in I as (I & _). apply in_map_iff. eauto.
Qed.
Lemma keys_put : forall m h v, NoDup (map fst m) -> NoDup (map fst (mput m h v)).
Proof. intros m h v N. cbn [mput map fst]. constructor; [|now apply keys_del]. intro I. apply in_map_iff in I as (x & E & I). apply filter_In in I as (_ & I). lia. Qed.
Lemma del_absent : forall m h, ~ In h (map fst m) -> mdel m h = m.
Proof. intros m h N. induction m as [|[k v] m IH]; auto. cbn [mdel filter fst map In] in *. replace (k =? h) with false by lia. cbn [negb]. f_equal. apply IH. tauto. Qed.
Lemma get_none : forall m h, mget m h = None -> ~ In h (map fst m).
Proof. intros m h E I. apply in_map_iff in I as (x & F & I). unfold mget in E. destruct (find (fun x => fst x =? h) m) eqn:D; [discriminate|]. pose proof (find_none _ _ D x I) as G. cbn in G. lia. Qed.
Lemma held_del : forall m h, NoDup (map fst m) -> Permutation (held m) (match mget m h with Some v => opt1 v | None => [] end ++ held (mdel m h)).
Proof.
  intros m h N. induction m as [|[k v] m IH]; [constructor|]. inversion N; subst. unfold mget. cbn [find fst mdel filter]. destruct (N.eqb_spec k h) as [->|D]; cbn [negb option_map snd].
  - fold (mdel m h). rewrite del_absent by auto. reflexivity.
  - fold (mdel m h). fold (mget m h). cbn [held flat_map snd]. fold (held m). fold (held (mdel m h)). rewrite (IH H2). rewrite !app_assoc. apply Permutation_app_tail, Permutation_app_comm.
Qed.
Lemma held_put : forall m h v, held (mput m h v) = opt1 v ++ held (mdel m h).
Proof. reflexivity. Qed.
(* the invariant *)
Definition inv (hist : list sop) : Prop :=
  let s := ss_run hist in
  NoDup (map fst (ss_mem s)) /\ (forall h, mget (ss_mem s) h <> None <-> alive hist h) /\ Permutation (made hist) (ss_called s ++ ss_released s ++ held (ss_mem s)) /\
  (forall h op, mget (ss_mem s) h = Some (Some op) <-> holds hist h op).
Lemma holds_inv : forall o past h op, holds (o :: past) h op <->
  (o = SMake h op \/ (exists g, o = SMoveNew h g /\ holds past g op) \/ (exists g, o = SMoveTo h g /\ h <> g /\ holds past g op) \/ (~ touches o h /\ holds past h op)).
Proof.
  intros o past h op. split.
  - intro H. inversion H; subst; [left; auto|right; left; eauto|right; right; left; eauto|right; right; right; auto].
  - intros [->|[(g & -> & H)|[(g & -> & D & H)|(T & H)]]]; [apply h_make|now apply h_new|now apply h_moved|now apply h_kept].
Qed.
Lemma invariant : forall hist, valid hist -> inv hist.
Proof.
  induction hist as [|o past IH]; intro V.
  - split; [constructor|]. split; [intro h; split; [intro H; now elim H|intros []]|]. split; [constructor|]. intros h op. split; [discriminate|intro H; inversion H].
  - destruct V as (V & A). destruct (IH V) as (K & L & P & H). unfold inv. cbn [ss_run]. destruct (ss_run past) as [m c r] eqn:R. cbn [ss_mem ss_called ss_released] in *.
    assert (Abs : forall h, ~ alive past h -> mget m h = None) by (intros h D; destruct (mget m h) eqn:E; auto; elim D; apply L; congruence).
    assert (Pre : forall h, alive past h -> exists x, mget m h = Some x) by (intros h D; apply L in D; destruct (mget m h); [eauto|now elim D]).
    assert (HD : forall h x, mget m h = Some x -> Permutation (held m) (opt1 x ++ held (mdel m h))) by (intros h x E; rewrite (held_del m h K) at 1; now rewrite E).
    destruct o as [h op|h|h g|h g|h|h|h]; cbn [ss_step]; unfold hdl_set, hdl_release, hdl_cancel; cbn [ss_mem ss_called ss_released].
    + specialize (Abs h A). split; [now apply keys_put|]. split; [|split].
      * intro k. rewrite get_put. cbn [alive]. rewrite <- L. destruct (N.eqb_spec k h) as [->|D]; [split; [auto|discriminate]|tauto].
      * rewrite held_put. rewrite del_absent by (now apply get_none). cbn [made opt1 app]. rewrite P. rewrite !app_assoc. apply Permutation_middle.
      * intros k q. rewrite get_put, holds_inv. cbn [touches]. rewrite <- H. destruct (N.eqb_spec k h) as [->|D].
        -- split; [intros [= ->]; auto|]. intros [E|[(g & E & _)|[(g & E & _)|(T & _)]]]; try discriminate; [congruence|tauto].
        -- split; [intro E; right; right; right; auto|]. intros [E|[(g & E & _)|[(g & E & _)|(T & E)]]]; try discriminate; auto. congruence.
    + specialize (Abs h A). split; [now apply keys_put|]. split; [|split].
      * intro k. rewrite get_put. cbn [alive]. rewrite <- L. destruct (N.eqb_spec k h) as [->|D]; [split; [auto|discriminate]|tauto].
      * rewrite held_put. rewrite del_absent by (now apply get_none). exact P.
      * intros k q. rewrite get_put, holds_inv. cbn [touches]. rewrite <- H. destruct (N.eqb_spec k h) as [->|D].
        -- split; [discriminate|]. intros [E|[(g & E & _)|[(g & E & _)|(T & _)]]]; try discriminate. tauto.
        -- split; [intro E; right; right; right; auto|]. intros [E|[(g & E & _)|[(g & E & _)|(T & E)]]]; try discriminate; auto.
    + destruct A as (A & B). destruct (Pre g B) as (x & G). specialize (Abs h A). assert (D : h <> g) by congruence. rewrite G. cbn [ss_mem ss_called ss_released].
      split; [now apply keys_put, keys_put|]. split; [|split].
      * intro k. rewrite !get_put. cbn [alive]. rewrite <- L. destruct (N.eqb_spec k h) as [->|Dk]; [split; [auto|discriminate]|]. destruct (N.eqb_spec k g) as [->|Dg]; [split; [intros _; right; congruence|discriminate]|tauto].
      * rewrite held_put. rewrite del_absent; [|apply get_none; rewrite get_put; now replace (h =? g) with false by lia]. rewrite held_put. cbn [made opt1 app]. rewrite P. apply Permutation_app_head, Permutation_app_head. now apply HD.
      * intros k q. rewrite !get_put, holds_inv. cbn [touches]. destruct (N.eqb_spec k h) as [->|Dk].
        -- split; [intros [= ->]; right; left; exists g; split; auto; now apply H|]. intros [E|[(g' & E & Y)|[(g' & E & _)|(T & _)]]]; try discriminate; [|tauto]. injection E as <-. apply H in Y. congruence.
        -- destruct (N.eqb_spec k g) as [->|Dg].
           ++ split; [discriminate|]. intros [E|[(g' & E & Y)|[(g' & E & _)|(T & _)]]]; try discriminate; [congruence|tauto].
           ++ rewrite H. split; [intro Y; right; right; right; split; auto; tauto|]. intros [E|[(g' & E & Y)|[(g' & E & _)|(T & Y)]]]; try discriminate; [congruence|auto].
    + destruct A as (A & B). destruct (Pre h A) as (x & E). destruct (Pre g B) as (y & G). rewrite E. cbn [ss_mem ss_called ss_released]. rewrite get_put.
      assert (PH : Permutation (held m) (opt1 x ++ held (mput m h None))) by (rewrite held_put; now apply HD).
      destruct (N.eqb_spec g h) as [->|D]; [|rewrite G]; cbn [ss_mem ss_called ss_released].
      * (* onto itself *)
        split; [now apply keys_put, keys_put, keys_put|]. split; [|split].
        -- intro k. rewrite !get_put. cbn [alive]. rewrite <- L. destruct (N.eqb_spec k h) as [->|Dk]; [split; [congruence|discriminate]|tauto].
        -- assert (Z : held (mput (mput (mput m h None) h None) h None) = held (mput m h None)).
           { assert (Q : forall n k, mdel (mput n k None) k = mdel n k).
             { intros n k. unfold mput. cbn [mdel filter fst]. rewrite N.eqb_refl. cbn [negb]. apply del_absent. intro I. apply in_map_iff in I as (z & F & I). apply filter_In in I as (_ & I). lia. }
             rewrite !held_put, !Q. reflexivity. }
           rewrite Z. cbn [made]. rewrite P, PH. rewrite <- !app_assoc. apply Permutation_app_head. rewrite !app_assoc. apply Permutation_app_tail, Permutation_app_comm.
        -- intros k q. rewrite !get_put, holds_inv. cbn [touches]. rewrite <- H. destruct (N.eqb_spec k h) as [->|Dk].
           ++ split; [discriminate|]. intros [F|[(g' & F & _)|[(g' & F & Dd & _)|(T & _)]]]; try discriminate; [congruence|tauto].
           ++ split; [intro Y; right; right; right; split; auto; tauto|]. intros [F|[(g' & F & _)|[(g' & F & Dd & _)|(T & Y)]]]; try discriminate; [congruence|auto].
      * split; [now apply keys_put, keys_put, keys_put|]. split; [|split].
        -- intro k. rewrite !get_put. cbn [alive]. rewrite <- L. destruct (N.eqb_spec k h) as [->|Dk]; [split; [congruence|discriminate]|]. destruct (N.eqb_spec k g) as [->|Dg]; [split; [congruence|discriminate]|tauto].
        -- cbn [made]. rewrite P, PH.
           assert (Q : Permutation (held (mput m h None)) (opt1 y ++ held (mdel (mput (mput m h None) g None) h))).
           { pose proof (held_del (mput m h None) g (keys_put m h None K)) as X. rewrite get_put in X. replace (g =? h) with false in X by lia. rewrite G in X. rewrite X. apply Permutation_app_head.
             pose proof (held_del (mput (mput m h None) g None) h (keys_put _ g None (keys_put m h None K))) as W. rewrite !get_put in W. replace (h =? g) with false in W by lia. rewrite N.eqb_refl in W. cbn [opt1 app] in W. rewrite <- W. reflexivity. }
           rewrite (held_put (mput (mput m h None) g None) h y). rewrite <- Q. rewrite <- !app_assoc. apply Permutation_app_head. rewrite !app_assoc. apply Permutation_app_tail, Permutation_app_comm.
        -- intros k q. rewrite !get_put, holds_inv. cbn [touches]. destruct (N.eqb_spec k h) as [->|Dk].
           ++ split; [intros [= ->]; right; right; left; exists g; split; auto; split; auto; now apply H|]. intros [F|[(g' & F & Y)|[(g' & F & Dd & Y)|(T & _)]]]; try discriminate; [|tauto]. injection F as <-. apply H in Y. congruence.
           ++ destruct (N.eqb_spec k g) as [->|Dg].
              ** split; [discriminate|]. intros [F|[(g' & F & Y)|[(g' & F & Dd & Y)|(T & _)]]]; try discriminate; [congruence|tauto].
              ** rewrite H. split; [intro Y; right; right; right; split; auto; tauto|]. intros [F|[(g' & F & Y)|[(g' & F & Dd & Y)|(T & Y)]]]; try discriminate; [congruence|auto].
    + destruct (Pre h A) as (x & E). rewrite E. cbn [ss_mem ss_called ss_released]. split; [now apply keys_put|]. split; [|split].
      * intro k. rewrite get_put. cbn [alive]. rewrite <- L. destruct (N.eqb_spec k h) as [->|Dk]; [split; [congruence|discriminate]|tauto].
      * rewrite held_put. cbn [made opt1 app]. rewrite P, (HD h x E). rewrite <- !app_assoc. apply Permutation_app_head. rewrite !app_assoc. apply Permutation_app_tail, Permutation_app_comm.
      * intros k q. rewrite get_put, holds_inv. cbn [touches]. rewrite <- H. destruct (N.eqb_spec k h) as [->|Dk].
        -- split; [discriminate|]. intros [F|[(g & F & _)|[(g & F & _)|(T & _)]]]; try discriminate. tauto.
        -- split; [intro Y; right; right; right; auto|]. intros [F|[(g & F & _)|[(g & F & _)|(T & Y)]]]; try discriminate; auto.
    + destruct (Pre h A) as (x & E). rewrite E. cbn [ss_mem ss_called ss_released]. split; [now apply keys_put|]. split; [|split].
      * intro k. rewrite get_put. cbn [alive]. rewrite <- L. destruct (N.eqb_spec k h) as [->|Dk]; [split; [congruence|discriminate]|tauto].
      * rewrite held_put. cbn [made opt1 app]. rewrite P, (HD h x E). rewrite <- !app_assoc. reflexivity.
      * intros k q. rewrite get_put, holds_inv. cbn [touches]. rewrite <- H. destruct (N.eqb_spec k h) as [->|Dk].
        -- split; [discriminate|]. intros [F|[(g & F & _)|[(g & F & _)|(T & _)]]]; try discriminate. tauto.
        -- split; [intro Y; right; right; right; auto|]. intros [F|[(g & F & _)|[(g & F & _)|(T & Y)]]]; try discriminate; auto.
    + destruct (Pre h A) as (x & E). rewrite E. cbn [ss_mem ss_called ss_released]. split; [now apply keys_del, keys_put|]. split; [|split].
      * intro k. rewrite get_del, get_put. cbn [alive]. rewrite <- L. destruct (N.eqb_spec k h) as [->|Dk]; [split; [congruence|tauto]|tauto].
      * assert (Q : mdel (mput m h None) h = mdel m h).
        { unfold mput. cbn [mdel filter fst]. rewrite N.eqb_refl. cbn [negb]. apply del_absent. intro I. apply in_map_iff in I as (z & F & I). apply filter_In in I as (_ & I). lia. }
        rewrite Q. cbn [made]. rewrite P, (HD h x E). rewrite <- !app_assoc. apply Permutation_app_head. rewrite !app_assoc. apply Permutation_app_tail, Permutation_app_comm.
      * intros k q. rewrite get_del, get_put, holds_inv. cbn [touches]. rewrite <- H. destruct (N.eqb_spec k h) as [->|Dk].
        -- split; [discriminate|]. intros [F|[(g & F & _)|[(g & F & _)|(T & _)]]]; try discriminate. tauto.
        -- split; [intro Y; right; right; right; auto|]. intros [F|[(g & F & _)|[(g & F & _)|(T & Y)]]]; try discriminate; auto.
Qed.

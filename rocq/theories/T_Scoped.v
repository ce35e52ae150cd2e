(* C103: scoped handles cancel what they are responsible for. *)
From Coq Require Import Lia ZifyBool ZifyN Permutation.
From Verif Require Import Base BaseLemmas M_Scoped S_Scoped P_Scoped.
Open Scope list_scope.
Open Scope N_scope.

Notation called hist := (ss_called (ss_run hist)).
Notation released hist := (ss_released (ss_run hist)).
Lemma held_in : forall m op, NoDup (map fst m) -> (In op (held m) <-> exists h, mget m h = Some (Some op)).
Proof.
  intros m op K. split.
  - intro I. apply in_flat_map in I as ([h v] & I & J). destruct v as [x|]; [|contradiction]. destruct J as [<-|[]]. exists h. unfold mget.
    induction m as [|[k v] m IH]; [contradiction|]. inversion K; subst. cbn [find fst]. destruct I as [[= -> ->]|I]; [now rewrite N.eqb_refl|].
    destruct (N.eqb_spec k h) as [->|D]; [|now apply IH]. elim H1. apply in_map_iff. now exists (h, Some x).
  - intros (h & E). apply (Permutation_in op (Permutation_sym (held_del m h K))). rewrite E. now left.
Qed.
(* C103: every operation for which a scoped handle was made has been cancelled, or was released, or some object is responsible for it. *)
Theorem C103_exactly : forall hist, valid hist -> forall op, In op (made hist) <-> In op (called hist) \/ In op (released hist) \/ exists h, holds hist h op.
Proof.
  intros hist V op. destruct (invariant hist V) as (K & _ & P & H). split.
  - intro I. apply (Permutation_in op P) in I. apply in_app_or in I as [I|I]; auto. apply in_app_or in I as [I|I]; auto. right. right. apply held_in in I as (h & E); auto. exists h. now apply H.
  - intro I. apply (Permutation_in op (Permutation_sym P)). apply in_or_app. destruct I as [I|[I|(h & I)]]; [now left| |]; right; apply in_or_app; [now left|right]. apply held_in; auto. exists h. now apply H.
Qed.
Print Assumptions C103_exactly.
(* C103: these exclude each other, it is cancelled at most once, released at most once, and one object at most is responsible. *)
Theorem C103_once : forall hist, valid hist -> NoDup (made hist) ->
  NoDup (called hist) /\ NoDup (released hist) /\ (forall op, In op (called hist) -> ~ In op (released hist)) /\
  (forall op h, holds hist h op -> ~ In op (called hist) /\ ~ In op (released hist) /\ forall g, holds hist g op -> g = h).
Proof.
  intros hist V Nd. destruct (invariant hist V) as (K & _ & P & H). apply (Permutation_NoDup P) in Nd.
  assert (S : forall (A B : list N), NoDup (A ++ B) -> NoDup A /\ NoDup B /\ forall x, In x A -> ~ In x B).
  { induction A as [|a A IH]; intros B M; [split; [constructor|split; auto]|]. cbn [app] in M. inversion M; subst. destruct (IH B H3) as (X & Y & Z). split; [constructor; auto; intro I; apply H2, in_or_app; auto|]. split; auto. intros x [<-|I]; auto. intro J. apply H2, in_or_app. auto. }
  destruct (S _ _ Nd) as (N1 & N' & D1). destruct (S _ _ N') as (N2 & N3 & D2).
  split; auto. split; auto. split; [intros op I J; apply (D1 op I), in_or_app; auto|].
  intros op h Hh. apply H in Hh. assert (I : In op (held (ss_mem (ss_run hist)))) by (apply held_in; eauto).
  split; [intro J; apply (D1 op J), in_or_app; auto|]. split; [intro J; now apply (D2 op J)|]. intros g Hg. apply H in Hg. destruct (N.eq_dec g h) as [|D]; auto. exfalso.
  apply (Permutation_NoDup (held_del _ h K)) in N3. rewrite Hh in N3. cbn [opt1 app] in N3. inversion N3; subst. apply H2. apply held_in; [now apply keys_del|]. exists g. rewrite get_del. now replace (g =? h) with false by lia.
Qed.
Print Assumptions C103_once.
(* C103: when no object is left, the operations not released have been cancelled, each once. *)
Theorem C103_end : forall hist, valid hist -> (forall h, ~ alive hist h) -> Permutation (made hist) (called hist ++ released hist).
Proof.
  intros hist V G. destruct (invariant hist V) as (K & L & P & H). destruct (ss_mem (ss_run hist)) as [|[h v] m] eqn:E; [now rewrite app_nil_r in P|].
  exfalso. apply (G h). apply L. unfold mget. cbn [find fst]. rewrite N.eqb_refl. discriminate.
Qed.
Print Assumptions C103_end.
(* C103: an operation is cancelled at the moment its object is cancelled, destroyed or assigned to, and at no other. *)
Theorem C103_when : forall o past, valid (o :: past) -> exists now, called (o :: past) = called past ++ now /\ forall op, In op now <-> exists h, holds past h op /\ ends o h.
Proof.
  intros o past (V & A). destruct (invariant past V) as (K & L & P & H). cbn [ss_run]. destruct (ss_run past) as [m c r]. cbn [ss_mem ss_called ss_released] in *.
  assert (Pre : forall h, alive past h -> exists x, mget m h = Some x) by (intros h D; apply L in D; destruct (mget m h); [eauto|now elim D]).
  assert (O : forall h x, mget m h = Some x -> forall op, In op (opt1 x) <-> holds past h op).
  { intros h x E op. rewrite <- H, E. destruct x as [y|]; cbn; [split; [intros [->|[]]; auto|intros [= ->]; auto]|split; [intros []|discriminate]]. }
  destruct o as [h q|h|h g|h g|h|h|h]; cbn [ss_step ends]; unfold hdl_set, hdl_release, hdl_cancel; cbn [ss_mem ss_called ss_released].
  - exists []. split; [now rewrite app_nil_r|]. intro op. split; [intros []|intros (k & _ & [])].
  - exists []. split; [now rewrite app_nil_r|]. intro op. split; [intros []|intros (k & _ & [])].
  - exists []. destruct A as (_ & B). destruct (Pre g B) as (y & ->). split; [now rewrite app_nil_r|]. intro op. split; [intros []|intros (k & _ & [])].
  - destruct A as (A & B). destruct (Pre h A) as (x & E). rewrite E. cbn [ss_mem ss_called ss_released]. exists (opt1 x). split; [destruct (mget (mput m h None) g); reflexivity|].
    intro op. rewrite (O h x E). split; [eauto|intros (k & Y & ->); auto].
  - destruct (Pre h A) as (x & E). rewrite E. exists (opt1 x). split; [reflexivity|]. intro op. rewrite (O h x E). split; [eauto|intros (k & Y & ->); auto].
  - destruct (Pre h A) as (x & E). rewrite E. exists []. split; [now rewrite app_nil_r|]. intro op. split; [intros []|intros (k & _ & [])].
  - destruct (Pre h A) as (x & E). rewrite E. exists (opt1 x). split; [reflexivity|]. intro op. rewrite (O h x E). split; [eauto|intros (k & Y & ->); auto].
Qed.
Print Assumptions C103_when.
(* C103: exactly the operations given back by release() count as released. *)
Theorem C103_released : forall hist, valid hist -> forall op, In op (released hist) <-> given_back hist op.
Proof.
  induction hist as [|o past IH]; intros V op.
  - split; [intros []|]. intros ([|] & h & past & E & _); discriminate.
  - destruct V as (V & A). specialize (IH V op). destruct (invariant past V) as (K & L & P & H).
    assert (S : given_back (o :: past) op <-> given_back past op \/ exists h, o = SRelease h /\ holds past h op).
    { split.
      - intros ([|x h1] & h & q & E & Y); cbn [app] in E; injection E as -> ->; [right; eauto|left; exists h1, h, q; auto].
      - intros [(h1 & h & q & -> & Y)|(h & -> & Y)]; [exists (o :: h1), h, q; auto|exists [], h, past; auto]. }
    rewrite S, <- IH. cbn [ss_run]. destruct (ss_run past) as [m c r]. cbn [ss_mem ss_called ss_released] in *.
    destruct o as [h q|h|h g|h g|h|h|h]; cbn [ss_step]; unfold hdl_set, hdl_release, hdl_cancel; cbn [ss_mem ss_called ss_released].
    1-2: (split; [auto|intros [I|(k & E & _)]; [auto|discriminate]]).
    + destruct (mget m g); cbn [ss_released]; (split; [auto|intros [I|(k & E & _)]; [auto|discriminate]]).
    + destruct (mget m h); cbn [ss_mem ss_released]; destruct (mget _ g); cbn [ss_released]; (split; [auto|intros [I|(k & E & _)]; [auto|discriminate]]).
    + destruct (mget m h); cbn [ss_released]; (split; [auto|intros [I|(k & E & _)]; [auto|discriminate]]).
    + apply L in A. destruct (mget m h) as [x|] eqn:E; [|now elim A]. cbn [ss_released]. rewrite in_app_iff. split.
      * intros [I|I]; auto. right. exists h. split; auto. apply H. destruct x as [y|]; [|contradiction]. destruct I as [->|[]]. exact E.
      * intros [I|(k & F & Y)]; auto. injection F as <-. apply H in Y. rewrite E in Y. injection Y as ->. right. now left.
    + destruct (mget m h); cbn [ss_released]; (split; [auto|intros [I|(k & E & _)]; [auto|discriminate]]).
Qed.
Print Assumptions C103_released.
(* Moving an object onto itself does not keep its operation: it is cancelled. *)
Theorem C103_self_move_refuted : exists past h op, valid (SMoveTo h h :: past) /\ holds past h op /\ In op (called (SMoveTo h h :: past)).
Proof. exists [SMake 1 7], 1, 7. split; [cbn; auto 8|]. split; [constructor|]. vm_compute. auto. Qed.
Print Assumptions C103_self_move_refuted.

(* three operations: one cancelled by assignment, one moved and cancelled by destruction, one released *)
Example C103_ex :
  let hist := rev [SMake 1 10; SMake 2 20; SEmpty 3; SMoveTo 1 2; SMoveNew 4 1; SMake 5 30; SRelease 5; SDestroy 1; SDestroy 2; SDestroy 3; SDestroy 5; SDestroy 4] in
  valid hist /\ NoDup (made hist) /\ called hist = [10; 20] /\ released hist = [30] /\ (forall h, ~ alive hist h).
Proof.
  cbv zeta. cbn [rev app]. split; [cbn; repeat split; try (intro; lia); try lia|]. split; [cbn; repeat constructor; cbn; lia|]. split; [reflexivity|]. split; [reflexivity|]. intro h. cbn. lia.
Qed.
Example C103_holds_ex : holds [SCancel 9; SMoveTo 1 2; SEmpty 9; SMake 2 20; SEmpty 1] 1 20.
Proof. apply h_kept; [cbn; lia|]. apply h_moved; [lia|]. apply h_kept; [cbn; lia|]. apply h_make. Qed.

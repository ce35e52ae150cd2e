(* Proofs about network interfaces. *)
From Coq Require Import Lia ZifyBool ZifyN.
From Verif Require Import Base BaseLemmas M_NetIf S_NetIf.
Open Scope list_scope.
Open Scope N_scope.

Notation st s o := (fst (fst (ni_step s o))).
Notation sg s o := (snd (fst (ni_step s o))).
Lemma run_cons : forall s o ops, ni_run s (o :: ops) = (fst (ni_run (st s o) ops), sg s o ++ snd (ni_run (st s o) ops)).
Proof. intros s o ops. cbn [ni_run]. destruct (ni_step s o) as [[s1 g1] b]. cbn [fst snd]. now destruct (ni_run s1 ops). Qed.
Lemma has_iff : forall ip l, ni_has ip l = true <-> exists a, In a l /\ na_ip a = ip.
Proof. intros ip l. unfold ni_has. rewrite existsb_exists. split; intros (a & I & E); exists a; split; auto; lia. Qed.
Lemma in_erase : forall ip l a, In a (ni_erase ip l) <-> In a l /\ na_ip a <> ip.
Proof. intros ip l a. unfold ni_erase. rewrite filter_In. split; intros (I & E); split; auto; lia. Qed.
Lemma nodup_erase : forall ip l, NoDup (map na_ip l) -> NoDup (map na_ip (ni_erase ip l)).
Proof.
  intros ip. induction l as [|a l IH]; intro N; [constructor|]. cbn [ni_erase filter map] in *. inversion N; subst. destruct (negb (na_ip a =? ip)); auto. cbn [map]. constructor; auto.
  intro I. apply H1. apply in_map_iff in I as (x & E & I). apply filter_In in I as (I & _). apply in_map_iff. eauto.
Qed.
(* what one call does to the addresses *)
Definition says (o : nop) (a : naddr) : Prop := o = OpAdd a /\ na_unspec a = false.
Lemma step_addrs : forall s o a, In a (ni_addrs (st s o)) <-> says o a \/ (In a (ni_addrs s) /\ ~ about (na_ip a) o).
Proof.
  intros s o a. unfold says. destruct o as [b|b|v|v]; cbn [ni_step].
  - unfold ni_add. destruct (na_unspec b) eqn:U; cbn [fst ni_addrs about].
    + rewrite U. split; [intro I; right; split; auto; intros (_ & E); discriminate|]. intros [(E & V)|(I & _)]; auto. injection E as ->. congruence.
    + rewrite U. cbn [In]. rewrite in_erase. split.
      * intros [->|(I & N)]; [left; auto|right; split; auto; intros (E & _); congruence].
      * intros [(E & _)|(I & N)]; [left; congruence|right; split; auto; intro E; apply N; split; auto; congruence].
  - unfold ni_remove. destruct (ni_has (na_ip b) (ni_addrs s)) eqn:H; cbn [fst ni_addrs about].
    + rewrite in_erase. split; [intros (I & N); right; split; auto|intros [(E & _)|(I & N)]; [discriminate|split; auto]].
    + split; [|intros [(E & _)|(I & _)]; [discriminate|auto]]. intro I. right. split; auto. intro E. assert (ni_has (na_ip b) (ni_addrs s) = true) by (apply has_iff; eauto). congruence.
  - unfold ni_setState. cbn [fst]. destruct (ni_state s =? v); cbn [fst ni_addrs about]; (split; [intro I; right; auto|intros [(E & _)|(I & _)]; [discriminate|auto]]).
  - unfold ni_setMtu. cbn [fst]. destruct (ni_mtu s =? v); cbn [fst ni_addrs about]; (split; [intro I; right; auto|intros [(E & _)|(I & _)]; [discriminate|auto]]).
Qed.
Lemma run_addrs : forall ops s a, In a (ni_addrs (fst (ni_run s ops))) <-> latest ops a \/ (In a (ni_addrs s) /\ forall o, In o ops -> ~ about (na_ip a) o).
Proof.
  induction ops as [|o ops IH]; intros s a.
  - cbn [ni_run fst]. split; [intro I; right; split; auto; intros o []|]. intros [(h1 & h2 & E & _)|(I & _)]; auto. destruct h1; discriminate.
  - rewrite run_cons. cbn [fst]. rewrite IH, step_addrs. split.
    + intros [(h1 & h2 & -> & U & N)|([(-> & U)|(I & N)] & M)].
      * left. exists (o :: h1), h2. auto.
      * left. exists [], ops. auto.
      * right. split; auto. intros x [<-|J]; auto.
    + intros [(h1 & h2 & E & U & N)|(I & N)].
      * destruct h1 as [|x h1]; cbn [app] in E.
        -- injection E as -> ->. right. split; auto. left. split; auto.
        -- injection E as -> ->. left. exists h1, h2. auto.
      * right. split; [right; split; auto; apply N; now left|]. intros x J. apply N. now right.
Qed.
Lemma step_nodup : forall s o, NoDup (map na_ip (ni_addrs s)) -> NoDup (map na_ip (ni_addrs (st s o))).
Proof.
  intros s o N. destruct o as [b|b|v|v]; cbn [ni_step].
  - unfold ni_add. destruct (na_unspec b); cbn [fst ni_addrs]; auto. cbn [map]. constructor; [|now apply nodup_erase]. intro I. apply in_map_iff in I as (x & E & I). apply in_erase in I as (_ & I). contradiction.
  - unfold ni_remove. destruct (ni_has _ _); cbn [fst ni_addrs]; auto. now apply nodup_erase.
  - unfold ni_setState. destruct (ni_state s =? v); auto.
  - unfold ni_setMtu. destruct (ni_mtu s =? v); auto.
Qed.
Lemma run_nodup : forall ops s, NoDup (map na_ip (ni_addrs s)) -> NoDup (map na_ip (ni_addrs (fst (ni_run s ops)))).
Proof. induction ops as [|o ops IH]; intros s N; auto. rewrite run_cons. cbn [fst]. apply IH. now apply step_nodup. Qed.
(* signals *)
Lemma has_erase : forall ip ip' l, ni_has ip (ni_erase ip' l) = ni_has ip l && negb (ip =? ip').
Proof.
  intros ip ip' l. apply eq_true_iff_eq. rewrite andb_true_iff, !has_iff. split.
  - intros (a & I & E). apply in_erase in I as (I & N). split; [eauto|lia].
  - intros ((a & I & E) & N). exists a. split; auto. apply in_erase. split; auto. lia.
Qed.
Lemma told_app : forall ip a b, told ip (a ++ b) = told ip a ++ told ip b.
Proof. intros. apply flat_map_app. Qed.
Lemma alternate_app : forall l m a b c, alternate a l b -> alternate b m c -> alternate a (l ++ m) c.
Proof. induction l as [|x l IH]; intros m a b c H G; cbn [app alternate] in *; [now subst|]. destruct H as (E & H). split; auto. eapply IH; eauto. Qed.
Lemma step_told : forall s o ip, alternate (ni_has ip (ni_addrs s)) (told ip (sg s o)) (ni_has ip (ni_addrs (st s o))).
Proof.
  intros s o ip. destruct o as [b|b|v|v]; cbn [ni_step].
  - unfold ni_add. destruct (na_unspec b); cbn [fst snd ni_addrs]; [reflexivity|]. destruct (ni_has (na_ip b) (ni_addrs s)) eqn:H; cbn [negb told flat_map alternate].
    + cbn [ni_has existsb]. fold (ni_has ip (ni_erase (na_ip b) (ni_addrs s))). rewrite has_erase. destruct (N.eqb_spec (na_ip b) ip) as [<-|N]; [now rewrite H|]. cbn [orb]. replace (ip =? na_ip b) with false by lia. now rewrite andb_true_r.
    + cbn [ni_has existsb]. fold (ni_has ip (ni_erase (na_ip b) (ni_addrs s))). rewrite has_erase, app_nil_r. destruct (N.eqb_spec (na_ip b) ip) as [<-|N]; cbn [alternate orb]; [now rewrite H|]. replace (ip =? na_ip b) with false by lia. now rewrite andb_true_r.
  - unfold ni_remove. destruct (ni_has (na_ip b) (ni_addrs s)) eqn:H; cbn [fst snd ni_addrs]; [|reflexivity]. cbn [told flat_map]. rewrite app_nil_r, has_erase. destruct (N.eqb_spec (na_ip b) ip) as [<-|N]; cbn [alternate].
    + rewrite H, N.eqb_refl. auto.
    + replace (ip =? na_ip b) with false by lia. now rewrite andb_true_r.
  - unfold ni_setState. destruct (ni_state s =? v); reflexivity.
  - unfold ni_setMtu. destruct (ni_mtu s =? v); reflexivity.
Qed.
Lemma run_told : forall ops s ip, alternate (ni_has ip (ni_addrs s)) (told ip (snd (ni_run s ops))) (ni_has ip (ni_addrs (fst (ni_run s ops)))).
Proof. induction ops as [|o ops IH]; intros s ip; [reflexivity|]. rewrite run_cons. cbn [fst snd]. rewrite told_app. eapply alternate_app; [apply step_told|apply IH]. Qed.
Lemma chain_app : forall l m a b c, chain a l b -> chain b m c -> chain a (l ++ m) c.
Proof. induction l as [|[x y] l IH]; intros m a b c H G; cbn [app chain] in *; [now subst|]. destruct H as (E & N & H). repeat split; auto. eapply IH; eauto. Qed.
Lemma step_state : forall s o, chain (ni_state s) (states (sg s o)) (ni_state (st s o)) /\ ni_state (st s o) = last_state (ni_state s) [o].
Proof.
  intros s o. destruct o as [b|b|v|v]; cbn [ni_step last_state].
  - unfold ni_add. destruct (na_unspec b); [split; reflexivity|]. destruct (ni_has _ _); split; reflexivity.
  - unfold ni_remove. destruct (ni_has _ _); split; reflexivity.
  - unfold ni_setState. cbn [fst snd]. destruct (N.eqb_spec (ni_state s) v) as [E|N]; cbn [fst snd states flat_map app chain ni_state]; auto.
  - unfold ni_setMtu. destruct (ni_mtu s =? v); split; reflexivity.
Qed.
Lemma step_mtu : forall s o, chain (ni_mtu s) (mtus (sg s o)) (ni_mtu (st s o)) /\ ni_mtu (st s o) = last_mtu (ni_mtu s) [o].
Proof.
  intros s o. destruct o as [b|b|v|v]; cbn [ni_step last_mtu].
  - unfold ni_add. destruct (na_unspec b); [split; reflexivity|]. destruct (ni_has _ _); split; reflexivity.
  - unfold ni_remove. destruct (ni_has _ _); split; reflexivity.
  - unfold ni_setState. destruct (ni_state s =? v); split; reflexivity.
  - unfold ni_setMtu. cbn [fst snd]. destruct (N.eqb_spec (ni_mtu s) v) as [E|N]; cbn [fst snd mtus flat_map app chain ni_mtu]; auto.
Qed.
Lemma run_values : forall ops s,
  (chain (ni_state s) (states (snd (ni_run s ops))) (ni_state (fst (ni_run s ops))) /\ ni_state (fst (ni_run s ops)) = last_state (ni_state s) ops) /\
  (chain (ni_mtu s) (mtus (snd (ni_run s ops))) (ni_mtu (fst (ni_run s ops))) /\ ni_mtu (fst (ni_run s ops)) = last_mtu (ni_mtu s) ops).
Proof.
  induction ops as [|o ops IH]; intro s; [repeat split; reflexivity|]. rewrite run_cons. cbn [fst snd]. destruct (IH (st s o)) as ((A & B) & (C & D)). destruct (step_state s o) as (E & F). destruct (step_mtu s o) as (G & H).
  unfold states, mtus in *. rewrite !flat_map_app. split; split; [eapply chain_app; eauto| |eapply chain_app; eauto|].
  - rewrite B, F. destruct o; reflexivity.
  - rewrite D, H. destruct o; reflexivity.
Qed.

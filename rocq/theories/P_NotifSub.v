From Coq Require Import ZArith Lia ZifyBool ZifyNat ZifyN.
From Verif Require Import Base BaseLemmas M_Tlv M_Name S_Name P_Name P_NameUri P_NameOrder M_NotifSub S_NotifSub.

(* ---- the state ---- *)
Definition in_face (s : sub) (i : nat) : Prop := (exists k, In (TExpress i k) (su_queue s)) \/ In i (map pe_id (su_table s)).
Definition live (s : sub) : Prop :=
  su_timer s = true \/ exists h k, su_handle s = Some h /\ (In (TExpress h k) (su_queue s) \/ In (mkPent h k true) (su_table s)).
Fixpoint qok (q : list stask) : Prop :=
  match q with [] => True | TCancel i :: q' => (forall k, ~ In (TExpress i k) q') /\ qok q' | TExpress _ _ :: q' => qok q' end.
Definition qids (q : list stask) : list nat := flat_map (fun t => match t with TExpress i _ => [i] | TCancel _ => [] end) q.

Record inv (s : sub) : Prop := mkInv {
  v_known : forall i, in_face s i -> su_handle s = Some i \/ In (TCancel i) (su_queue s);
  v_handle : forall h, su_handle s = Some h -> (h < su_next s)%nat /\ ~ In (TCancel h) (su_queue s);
  v_ids : forall i, in_face s i \/ In (TCancel i) (su_queue s) -> (i < su_next s)%nat;
  v_qok : qok (su_queue s);
  v_nodup : NoDup (qids (su_queue s) ++ map pe_id (su_table s));
  v_stopped : su_running s = false -> su_handle s = None;
  v_dead : su_alive s = false -> su_handle s = None /\ su_timer s = false }.

Lemma qok_app : forall a b, qok a -> qok b -> (forall i k, In (TCancel i) a -> ~ In (TExpress i k) b) -> qok (a ++ b).
Proof.
  induction a as [|t a IH]; intros b A B H; [exact B|]. destruct t as [i k|i]; cbn in *.
  - apply IH; auto.
  - destruct A as [A1 A2]. split.
    + intros k I. apply in_app_iff in I as [I|I]; [exact (A1 k I)|]. exact (H i k (or_introl eq_refl) I).
    + apply IH; auto.
Qed.
Lemma qids_in : forall q i, In i (qids q) <-> exists k, In (TExpress i k) q.
Proof.
  intros q i. unfold qids. rewrite in_flat_map. split.
  - intros (t & I & H). destruct t as [j k|j]; cbn in H; [|tauto]. destruct H as [->|[]]. eauto.
  - intros (k & I). exists (TExpress i k). split; auto. left. reflexivity.
Qed.
Lemma qids_app : forall a b, qids (a ++ b) = qids a ++ qids b.
Proof. intros. unfold qids. apply flat_map_app. Qed.
Lemma qids_cancel : forall h, qids (cancel_task h) = [].
Proof. intros [h|]; reflexivity. Qed.
Lemma in_cancel : forall h t, In t (cancel_task h) <-> exists i, h = Some i /\ t = TCancel i.
Proof.
  intros [h|] t; cbn; split; intro H.
  - destruct H as [<-|[]]. eauto.
  - destruct H as (i & [= <-] & ->). auto.
  - tauto.
  - destruct H as (i & H & _). discriminate.
Qed.
Lemma qok_cancel : forall h, qok (cancel_task h).
Proof. intros [h|]; cbn; auto. Qed.

Lemma inv_new : inv su_new.
Proof.
  constructor; cbn; unfold in_face; cbn.
  - intros i [(k & [])|[]].
  - discriminate.
  - intros i [[(k & [])|[]]|[]].
  - exact I.
  - constructor.
  - auto.
  - discriminate.
Qed.

(* setters that do not touch the face *)
Lemma inv_same : forall s s', inv s -> su_queue s' = su_queue s -> su_table s' = su_table s -> su_next s' = su_next s -> su_handle s' = su_handle s ->
  (su_running s = true -> su_running s' = true) -> (su_alive s' = false -> su_handle s' = None /\ su_timer s' = false) -> inv s'.
Proof.
  intros s s' [A B C D E F G] Q T NX H R DD. unfold in_face in *. rewrite H in DD. constructor; unfold in_face; rewrite ?Q, ?T, ?NX, ?H; auto.
  intro X. apply F. destruct (su_running s); auto. rewrite R in X; auto; discriminate.
Qed.

Lemma inv_drop : forall s s', inv s -> su_queue s' = su_queue s ++ cancel_task (su_handle s) -> su_table s' = su_table s -> su_next s' = su_next s ->
  su_handle s' = None -> (su_alive s' = false -> su_timer s' = false) -> inv s'.
Proof.
  intros s s' [A B C D E F G] Q T NX H DD. unfold in_face in *.
  assert (X : forall i k, In (TExpress i k) (su_queue s') <-> In (TExpress i k) (su_queue s)).
  { intros. rewrite Q, in_app_iff, in_cancel. split; auto. intros [I|(j & _ & K)]; [auto|discriminate]. }
  constructor; unfold in_face; rewrite ?T, ?NX, ?H.
  - intros i I. right. rewrite Q, in_app_iff, in_cancel.
    assert (K : su_handle s = Some i \/ In (TCancel i) (su_queue s)). { apply A. destruct I as [(k & I)|I]; [left; exists k; apply X; exact I|auto]. }
    destruct K as [K|K]; eauto.
  - discriminate.
  - intros i [[(k & I)|I]|I].
    + apply C. left. left. exists k. apply X. exact I.
    + apply C. auto.
    + rewrite Q, in_app_iff, in_cancel in I. destruct I as [I|(j & Hh & [= <-])]; [apply C; auto|]. apply B. exact Hh.
  - rewrite Q. apply qok_app; auto using qok_cancel. intros i k _. rewrite in_cancel. intros (j & _ & K). discriminate.
  - rewrite Q, qids_app, qids_cancel, app_nil_r. exact E.
  - auto.
  - auto.
Qed.

Lemma inv_stop : forall s, inv s -> inv (su_stop s).
Proof.
  intros s V. unfold su_stop. destruct (su_running s); [|exact V]. eapply inv_drop; try exact V; try reflexivity. cbn. apply V.
Qed.
Lemma shouldStop_spec : forall s s' b, shouldStop s = (s', b) ->
  (b = true /\ su_running s' = false /\ (s' = s \/ s' = su_stop s)) \/ (b = false /\ s' = s /\ su_running s = true /\ (su_onNotif s || su_onNack s = true)).
Proof.
  intros s s' b. unfold shouldStop. destruct (su_running s) eqn:R; cbn.
  - destruct (su_onNotif s) eqn:N, (su_onNack s) eqn:K; cbn; intros [= <- <-]; auto. left. splits; auto. unfold su_stop. rewrite R. reflexivity.
  - intros [= <- <-]. auto.
Qed.
Lemma inv_send : forall k s s' o, inv s -> su_running s = true -> su_alive s = true -> su_send k s = (s', o) ->
  inv s' /\ su_handle s' = Some (su_next s) /\ su_running s' = true /\ su_alive s' = true /\ su_table s' = su_table s /\ su_next s' = S (su_next s) /\
  su_last s' = su_last s /\ In (TExpress (su_next s) k) (su_queue s') /\ o = [OSend (su_next s) k] /\ su_timer s' = su_timer s.
Proof.
  intros k s s' o [A B C D E F G] R L [= <- <-]. cbn. splits; auto; [|apply in_app_iff; right; left; reflexivity].
  assert (X : forall i j, In (TExpress i j) (su_queue s ++ TExpress (su_next s) k :: cancel_task (su_handle s)) <-> In (TExpress i j) (su_queue s) \/ (i = su_next s /\ j = k)).
  { intros. rewrite in_app_iff. cbn. rewrite in_cancel. split; [|intros [I|[-> ->]]; auto]. intros [I|[[= -> ->]|(h & _ & K)]]; auto. discriminate. }
  assert (Y : forall i, In (TCancel i) (su_queue s ++ TExpress (su_next s) k :: cancel_task (su_handle s)) <-> In (TCancel i) (su_queue s) \/ su_handle s = Some i).
  { intros. rewrite in_app_iff. cbn. rewrite in_cancel. split; [|intros [I|I]; eauto]. intros [I|[K|(h & H & [= <-])]]; auto. discriminate. }
  unfold in_face in *. constructor; unfold in_face; cbn.
  - intros i [(j & I)|I].
    + apply X in I as [I|[-> _]]; auto. right. apply Y. destruct (A i (or_introl (ex_intro _ j I))); auto.
    + right. apply Y. destruct (A i (or_intror I)); auto.
  - intros h [= <-]. split; [lia|]. rewrite Y. intros [I|I]; [specialize (C _ (or_intror I)); lia|apply B in I as [I _]; lia].
  - intros i [[(j & I)|I]|I].
    + apply X in I as [I|[-> _]]; [|lia]. specialize (C i (or_introl (or_introl (ex_intro _ j I)))). lia.
    + specialize (C i (or_introl (or_intror I))). lia.
    + apply Y in I as [I|I]; [specialize (C i (or_intror I)); lia|apply B in I as [I _]; lia].
  - apply qok_app; auto.
    + cbn. apply qok_cancel.
    + intros i j I [K|K]; [injection K as <- _; specialize (C _ (or_intror I)); lia|]. apply in_cancel in K as (h & _ & K). discriminate.
  - rewrite qids_app. cbn [qids flat_map]. fold (qids (cancel_task (su_handle s))). rewrite qids_cancel, <- app_assoc. cbn.
    apply NoDup_Add with (a := su_next s) (l := qids (su_queue s) ++ map pe_id (su_table s)); [apply Add_app|]. split; auto.
    intro I. apply in_app_iff in I. assert (K : (su_next s < su_next s)%nat); [|lia]. apply C. left. destruct I as [I|I]; auto. left. apply qids_in. exact I.
  - congruence.
  - congruence.
Qed.

(* what the functions called by handlers keep *)
Definition keeps (s s' : sub) : Prop :=
  su_alive s' = su_alive s /\ su_table s' = su_table s /\ (su_next s <= su_next s')%nat /\ su_last s' = su_last s /\ (su_timer s = true -> su_timer s' = true) /\
  su_lastNack s' = su_lastNack s /\ su_attempts s' = su_attempts s /\ (su_handle s' = su_handle s \/ su_handle s' = None \/ exists h, su_handle s' = Some h /\ (su_next s <= h)%nat).
Lemma keeps_refl : forall s, keeps s s.
Proof. intro s. unfold keeps. splits; auto. Qed.
Lemma keeps_trans : forall a b c, keeps a b -> keeps b c -> keeps a c.
Proof.
  unfold keeps. intros a b c (A1 & A2 & A3 & A4 & A5 & A6 & A7 & A8) (B1 & B2 & B3 & B4 & B5 & B6 & B7 & B8).
  splits; try congruence; try lia; auto. destruct B8 as [E|[E|(h & E & L)]].
  - rewrite E. destruct A8 as [A8|[A8|(h & A8 & L)]]; eauto.
  - auto.
  - right. right. exists h. split; auto. lia.
Qed.
Lemma keeps_stop : forall s, keeps s (su_stop s).
Proof. intro s. unfold su_stop. destruct (su_running s); [|apply keeps_refl]. unfold keeps. cbn. splits; auto. Qed.
Lemma keeps_send : forall k s, keeps s (fst (su_send k s)).
Proof. intros. unfold keeps. cbn. splits; auto. right. right. eexists. split; [reflexivity|auto]. Qed.

Definition good (s : sub) : Prop := su_alive s = true /\ su_running s = true -> live s.
Definition only_sends (P : skind -> Prop) (o : list sout) : Prop := forall x, In x o -> exists i k, x = OSend i k /\ P k.

Lemma send_with : forall (k : sub -> skind) s s' o, inv s -> su_alive s = true -> (let (s1, b) := shouldStop s in if b then (s1, []) else su_send (k s1) s1) = (s', o) ->
  inv s' /\ keeps s s' /\ good s' /\ (su_running s' = true -> o = [OSend (su_next s) (k s)] /\ su_handle s' = Some (su_next s)) /\
  (o = [] \/ o = [OSend (su_next s) (k s)]) /\
  (forall i j, In (OSend i j) o <-> i = su_next s /\ j = k s /\ su_next s' = S (su_next s)) /\
  (forall i j, In (TExpress i j) (su_queue s') -> In (TExpress i j) (su_queue s) \/ In (OSend i j) o).
Proof.
  intros k s s' o V L H. destruct (shouldStop s) as [s1 b] eqn:E. destruct (shouldStop_spec _ _ _ E) as [(-> & R & Q)|(-> & -> & R & _)].
  - injection H as <- <-. assert (V1 : inv s1) by (destruct Q as [->| ->]; auto using inv_stop).
    assert (K1 : keeps s s1) by (destruct Q as [->| ->]; auto using keeps_stop, keeps_refl).
    splits; auto.
    + intros [_ X]. congruence.
    + intro X. congruence.
    + intros i j. cbn. split; [tauto|]. intros (_ & _ & X). destruct Q as [->| ->]; [lia|]. unfold su_stop in X. destruct (su_running s); cbn in X; lia.
    + intros i j I. left. destruct Q as [->| ->]; auto. unfold su_stop in I. destruct (su_running s); auto. cbn in I. apply in_app_iff in I as [I|I]; auto.
      apply in_cancel in I as (h & _ & X). discriminate.
  - destruct (inv_send _ _ _ _ V R L H) as (V1 & Hd & R1 & L1 & T1 & N1 & La & I1 & -> & Tm).
    assert (K1 : keeps s s'). { replace s' with (fst (su_send (k s) s)) by (rewrite H; reflexivity). apply keeps_send. }
    splits; auto.
    + intros _. right. eauto.
    + intros i j. cbn. split; [intros [[= <- <-]|[]]; auto|]. intros (-> & -> & _). auto.
    + injection H as <-. cbn. intros i j I. apply in_app_iff in I as [I|[I|I]]; auto; [right; left; congruence|]. apply in_cancel in I as (h & _ & X). discriminate.
Qed.

Definition ext (s s' : sub) (o : list sout) : Prop :=
  inv s' /\ su_alive s' = su_alive s /\ su_table s' = su_table s /\ (su_next s <= su_next s')%nat /\
  (forall i j, In (TExpress i j) (su_queue s') -> In (TExpress i j) (su_queue s) \/ In (OSend i j) o) /\
  (forall i j, In (OSend i j) o -> (su_next s <= i < su_next s')%nat).
Definition inits (o : list sout) : Prop := forall x, In x o -> exists i, x = OSend i SInitial.
Definition same (s s' : sub) : Prop := su_lastNack s' = su_lastNack s /\ su_attempts s' = su_attempts s.
(* what is left after a callback that returned *)
Definition fresh (s s' : sub) : Prop :=
  su_running s' = true -> su_timer s' = true \/ exists h k, su_handle s' = Some h /\ (su_next s <= h)%nat /\ In (TExpress h k) (su_queue s').

Lemma ext_refl : forall s, inv s -> ext s s [].
Proof. intros s V. unfold ext. splits; auto; intros i j []. Qed.
Lemma ext_trans : forall a b c o1 o2, ext a b o1 -> ext b c o2 -> ext a c (o1 ++ o2).
Proof.
  unfold ext. intros a b c o1 o2 (A1 & A2 & A3 & A4 & A5 & A6) (B1 & B2 & B3 & B4 & B5 & B6). splits; auto; try congruence; try lia.
  - intros i j I. rewrite in_app_iff. destruct (B5 _ _ I) as [K|K]; auto. destruct (A5 _ _ K); auto.
  - intros i j I. apply in_app_iff in I as [I|I]; [specialize (A6 _ _ I)|specialize (B6 _ _ I)]; lia.
Qed.
Lemma ext_cons : forall a b x o, (forall i j, x <> OSend i j) -> ext a b o -> ext a b (x :: o).
Proof.
  unfold ext. intros a b x o N (A1 & A2 & A3 & A4 & A5 & A6). repeat (split; [assumption|]). split.
  - intros i j I. destruct (A5 _ _ I); auto. right. right. auto.
  - intros i j [->|I]; [destruct (N i j eq_refl)|]. exact (A6 _ _ I).
Qed.
Lemma inits_app : forall a b, inits a -> inits b -> inits (a ++ b).
Proof. intros a b A B x I. apply in_app_iff in I as [I|I]; auto. Qed.

Lemma send_ext : forall (k : sub -> skind) s s' o, inv s -> su_alive s = true -> (let (s1, b) := shouldStop s in if b then (s1, []) else su_send (k s1) s1) = (s', o) ->
  ext s s' o /\ keeps s s' /\ good s' /\ ((o = [] /\ su_running s' = false) \/ (o = [OSend (su_next s) (k s)] /\ su_running s' = true /\ su_handle s' = Some (su_next s) /\ In (TExpress (su_next s) (k s)) (su_queue s'))).
Proof.
  intros k s s' o V L H. destruct (send_with k s s' o V L H) as (V1 & K & G & R & O & S1 & S2). splits; auto.
  - destruct K as (K1 & K2 & K3 & _). unfold ext. splits; auto. intros i j I. apply S1 in I as (-> & _ & ->). lia.
  - destruct (shouldStop s) as [s1 b] eqn:E. destruct (shouldStop_spec _ _ _ E) as [(-> & Q & _)|(-> & -> & Q & _)].
    + injection H as <- <-. auto.
    + right. destruct (inv_send _ _ _ _ V Q L H) as (_ & A & B & _ & _ & _ & _ & C & D & _). auto.
Qed.
Lemma send_fresh : forall s s' (o : list sout) k, (o = [] /\ su_running s' = false) \/ (o = [OSend (su_next s) k] /\ su_running s' = true /\ su_handle s' = Some (su_next s) /\ In (TExpress (su_next s) k) (su_queue s')) -> fresh s s'.
Proof. intros s s' o k [[_ R]|(_ & _ & H & I)] X; [congruence|]. right. exists (su_next s), k. auto. Qed.

Lemma act_ext : forall a s s' o, inv s -> su_alive s = true -> su_act a s = (s', o) -> ext s s' o /\ keeps s s' /\ inits o /\ (good s -> good s').
Proof.
  intros a s s' o V L H. destruct a as [| |n k]; cbn in H.
  - unfold su_start in H. destruct (su_running s) eqn:R.
    + injection H as <- <-. splits; auto using ext_refl, keeps_refl. intros x [].
    + assert (V1 : inv (setRunning true s)). { eapply inv_same; try exact V; try reflexivity; cbn; intro X; congruence. }
      destruct (send_ext (fun _ => SInitial) _ _ _ V1 L H) as (E & K & G & O). splits; auto.
      destruct O as [[-> _]|(-> & _)]; intros x I; cbn in I; [tauto|]. destruct I as [<-|[]]. eauto.
  - injection H as <- <-. splits.
    + pose proof (keeps_stop s) as K. destruct K as (K1 & K2 & K3 & _). unfold ext. splits; auto using inv_stop; [|intros i j []].
      unfold su_stop. destruct (su_running s); cbn; auto. intros i j I. apply in_app_iff in I as [I|I]; auto. apply in_cancel in I as (h & _ & X). discriminate.
    + apply keeps_stop.
    + intros x [].
    + intros G [A R]. unfold su_stop in R. destruct (su_running s) eqn:Q; cbn in R; [discriminate|congruence].
  - injection H as <- <-. splits.
    + unfold ext. cbn. splits; auto; [|intros i j []]. eapply inv_same; try exact V; try reflexivity; cbn; auto. apply V.
    + unfold keeps. cbn. splits; auto.
    + intros x [].
    + intros G X. apply G in X. exact X.
Qed.
Lemma acts_ext : forall l s s' o, inv s -> su_alive s = true -> su_acts l s = (s', o) -> ext s s' o /\ keeps s s' /\ inits o /\ (good s -> good s').
Proof.
  induction l as [|a l IH]; intros s s' o V L H; cbn in H.
  - injection H as <- <-. splits; auto using ext_refl, keeps_refl. intros x [].
  - destruct (su_act a s) as [s1 o1] eqn:E1. destruct (su_acts l s1) as [s2 o2] eqn:E2. injection H as <- <-.
    destruct (act_ext _ _ _ _ V L E1) as (X1 & K1 & I1 & G1). destruct X1 as (V1 & L1 & X1).
    destruct (IH _ _ _ V1 (eq_trans L1 L) E2) as (X2 & K2 & I2 & G2). splits; eauto using keeps_trans, inits_app.
    eapply ext_trans; [|exact X2]. unfold ext. auto.
Qed.

Section Steps.
Variable conv dconv : convention.
Variable prefix : name.
Notation step := (su_step conv dconv prefix).

(* what one event makes visible *)
Inductive chunk (s s' : sub) : list sout -> Prop :=
| CSends : forall o, inits o -> same s s' -> chunk s s' o
| CCall : forall x o, (forall i n, x <> ODeliver i n) -> (forall i k, x <> OSend i k) -> (forall n d, x <> OWait n d) -> x <> OUb -> inits o -> same s s' -> chunk s s' (x :: o)
| CDeliver : forall x d n o o2, In x (su_table s) -> matches conv prefix (pe_kind x) d = true -> seq_of dconv d = Ok n -> inits o ->
    (o2 = [] \/ exists h, o2 = [OSend h (SNext ((n + 1) mod two64))]) -> same s s' -> chunk s s' (ODeliver (pe_id x) n :: o ++ o2)
| CWait : forall i n o d r, inits o -> su_lastNack s' = n -> su_attempts s' = (if su_lastNack s =? n then su_attempts s + 1 else 1) ->
    backoff (su_attempts s') r = Ok d -> chunk s s' (ONack i n :: o ++ [OWait n d])
| CUb1 : chunk s s' [OUb]
| CUb2 : forall i n o, inits o -> chunk s s' (ONack i n :: o ++ [OUb]).

Lemma inv_timer : forall b s, su_alive s = true -> inv s -> inv (setTimer b s).
Proof. intros b s L V. eapply inv_same; try exact V; try reflexivity; cbn; auto. intro X. congruence. Qed.
Lemma inv_last : forall b s, inv s -> inv (setLast b s).
Proof. intros b s V. eapply inv_same; try exact V; try reflexivity; cbn; auto. apply V. Qed.
Lemma inv_nacks : forall a b s, inv s -> inv (setNacks a b s).
Proof. intros a b s V. eapply inv_same; try exact V; try reflexivity; cbn; auto. apply V. Qed.

Lemma in_remove : forall x i t, In x (remove_id i t) <-> In x t /\ pe_id x <> i.
Proof. intros. unfold remove_id. rewrite filter_In. rewrite Bool.negb_true_iff, Nat.eqb_neq. tauto. Qed.
Lemma ids_remove : forall i t, forall j, In j (map pe_id (remove_id i t)) <-> In j (map pe_id t) /\ j <> i.
Proof.
  intros i t j. rewrite !in_map_iff. split.
  - intros (x & <- & I). apply in_remove in I as [I N]. eauto.
  - intros [(x & <- & I) N]. exists x. rewrite in_remove. auto.
Qed.
Lemma ids_untime : forall i t, map pe_id (untime i t) = map pe_id t.
Proof. intros i t. unfold untime. rewrite map_map. apply map_ext. intro x. destruct (Nat.eqb (pe_id x) i); reflexivity. Qed.
Lemma nodup_app_sub : forall (a b c : list nat), NoDup (a ++ b) -> NoDup c -> (forall x, In x c -> In x b) -> NoDup (a ++ c).
Proof.
  induction a as [|x a IH]; intros b c H C S; cbn in *; auto. apply NoDup_cons_iff in H as [N H]. constructor; eauto.
  intro I. apply N. apply in_app_iff. apply in_app_iff in I as [I|I]; auto.
Qed.
Lemma nodup_remove_id : forall i t, NoDup (map pe_id t) -> NoDup (map pe_id (remove_id i t)).
Proof.
  induction t as [|x t IH]; intro H; cbn in *; auto. apply NoDup_cons_iff in H as [N H]. destruct (negb (Nat.eqb (pe_id x) i)); cbn; auto.
  constructor; auto. intro I. apply ids_remove in I as [I _]. auto.
Qed.
Lemma nodup_right : forall (a b : list nat), NoDup (a ++ b) -> NoDup b.
Proof. induction a; intros b H; auto. apply NoDup_cons_iff in H as [_ H]. auto. Qed.

Lemma inv_table : forall s t, inv s -> (forall i, In i (map pe_id t) -> In i (map pe_id (su_table s))) -> NoDup (map pe_id t) -> inv (setFace (su_queue s) t s).
Proof.
  intros s t [A B C D E F G] S N. unfold in_face in *. constructor; unfold in_face; cbn; auto.
  - intros i [I|I]; auto.
  - intros i [[I|I]|I]; auto.
  - eapply nodup_app_sub; eauto.
Qed.

Lemma emit_ext : forall x acts t k s s' c threw, inv s -> su_alive s = true -> (forall i j, x <> OSend i j) ->
  su_emit x acts t k s = (s', c, threw) ->
  threw = t /\ exists o1, inits o1 /\
  match t with
  | true => c = x :: o1 /\ ext s s' c /\ keeps s s' /\ (good s -> good s')
  | false => exists s1 o2, k s1 = (s', o2) /\ c = x :: o1 ++ o2 /\ ext s s1 (x :: o1) /\ keeps s s1
  end.
Proof.
  intros x acts t k s s' c threw V L N H. unfold su_emit in H. destruct (su_acts acts s) as [s1 o1] eqn:E.
  destruct (acts_ext _ _ _ _ V L E) as (X1 & K1 & I1 & G1). destruct t.
  - injection H as <- <- <-. split; auto. exists o1. splits; auto. apply ext_cons; auto.
  - destruct (k s1) as [s2 o2] eqn:E2. injection H as <- <- <-. split; auto. exists o1. split; auto. exists s1, o2. splits; auto. apply ext_cons; auto.
Qed.

Definition called (s s' : sub) (c : list sout) (threw : bool) : Prop :=
  ext s s' c /\ chunk s s' c /\ (threw = false -> ~ In OUb c -> fresh s s') /\ (threw = true -> good s -> good s').
Lemma inits_no_send : forall o x, inits o -> In x o -> exists i, x = OSend i SInitial.
Proof. auto. Qed.

Lemma stop_called : forall s s' b, inv s -> shouldStop s = (s', b) -> b = true -> called s s' [] false.
Proof.
  intros s s' b V E ->. destruct (shouldStop_spec _ _ _ E) as [(_ & R & Q)|(X & _)]; [|discriminate].
  unfold called. splits.
  - destruct Q as [->| ->]; [apply ext_refl; auto|]. pose proof (keeps_stop s) as K. destruct K as (K1 & K2 & K3 & _). unfold ext. splits; auto using inv_stop; [|intros i j []].
    unfold su_stop. destruct (su_running s); cbn; auto. intros i j I. apply in_app_iff in I as [I|I]; auto. apply in_cancel in I as (h & _ & X). discriminate.
  - apply CSends; [intros x []|]. destruct Q as [->| ->]; [split; auto|]. destruct (keeps_stop s) as (_ & _ & _ & _ & _ & A & B & _). split; auto.
  - intros _ _ X. congruence.
  - discriminate.
Qed.

(* a callback that ends with another Interest *)
Lemma emit_send : forall x acts t (k : sub -> skind) s0 s s' c threw, inv s -> su_alive s = true -> (forall i j, x <> OSend i j) ->
  su_table s = su_table s0 -> su_next s = su_next s0 -> same s0 s ->
  su_emit x acts t (fun s => let (s1, b) := shouldStop s in if b then (s1, []) else su_send (k s1) s1) s = (s', c, threw) ->
  threw = t /\ ext s s' c /\ same s0 s' /\ (threw = false -> fresh s0 s') /\ (threw = true -> good s -> good s') /\
  exists o o2, inits o /\ c = x :: o ++ o2 /\ (o2 = [] \/ exists s1 h, keeps s s1 /\ o2 = [OSend h (k s1)]).
Proof.
  intros x acts t k s0 s s' c threw V L N T0 N0 S0 H. destruct (emit_ext _ _ _ _ _ _ _ _ V L N H) as (-> & o1 & I1 & R). split; auto. destruct t.
  - destruct R as (-> & X & K & G). destruct K as (K1 & K2 & K3 & K4 & K5 & K6 & K7 & _). splits; auto.
    + destruct S0. split; congruence.
    + discriminate.
    + exists o1, []. rewrite app_nil_r. auto.
  - destruct R as (s1 & o2 & E & -> & X & K). destruct X as (V1 & L1 & X1). pose proof (conj V1 (conj L1 X1) : ext s s1 (x :: o1)) as X.
    destruct (send_ext k _ _ _ V1 (eq_trans L1 L) E) as (X2 & K2 & _ & O). pose proof (keeps_trans _ _ _ K K2) as K3.
    pose proof (send_fresh _ _ _ _ O) as FR. splits; auto.
    + exact (ext_trans _ _ _ _ _ X X2).
    + destruct S0, K3 as (_ & _ & _ & _ & _ & A & B & _). split; congruence.
    + intros _ R. destruct (FR R) as [Q|(h & kk & A & B & C)]; auto. right. exists h, kk. splits; auto. destruct K as (_ & _ & Nx & _). lia.
    + discriminate.
    + exists o1, o2. splits; auto. destruct O as [[-> _]|(-> & _)]; auto. right. exists s1, (su_next s1). auto.
Qed.

Lemma ext_weaken : forall s s0 s' c, ext s s' c -> su_queue s = su_queue s0 -> su_table s = su_table s0 -> su_next s = su_next s0 -> su_alive s = su_alive s0 -> ext s0 s' c.
Proof. intros s s0 s' c X Q T N A. unfold ext in *. rewrite Q, T, N, A in X. exact X. Qed.

Lemma data_called : forall x d ok acts t s s' c threw, inv s -> su_alive s = true -> In x (su_table s) -> matches conv prefix (pe_kind x) d = true ->
  afterReceiveData dconv (pe_id x) d ok acts t s = (s', c, threw) -> called s s' c threw /\ (threw = true -> t = true).
Proof.
  intros x d ok acts t s s' c threw V L I M H. unfold afterReceiveData in H. destruct (shouldStop s) as [s1 b] eqn:E. destruct b.
  - injection H as <- <- <-. split; [eapply stop_called; eauto|discriminate].
  - destruct (shouldStop_spec _ _ _ E) as [(X & _)|(_ & -> & R & _)]; [discriminate|].
    assert (B : forall s1, inv s1 -> su_alive s1 = true -> su_queue s1 = su_queue s -> su_table s1 = su_table s -> su_next s1 = su_next s -> same s s1 -> (good s -> good s1) ->
      su_emit (OBad (pe_id x)) acts t sendInitial s1 = (s', c, threw) -> called s s' c threw /\ (threw = true -> t = true)).
    { intros s1 V1 L1 Q1 T1 N1 S1 G1 HH. assert (NN : forall i j, OBad (pe_id x) <> OSend i j) by discriminate.
      destruct (emit_send _ _ _ (fun _ => SInitial) s _ _ _ _ V1 L1 NN T1 N1 S1 HH) as (-> & X & SS & F & G & o & o2 & Io & -> & O). split; [|auto].
      unfold called. splits; auto.
      - eapply ext_weaken; eauto; congruence.
      - apply CCall; auto; try discriminate. apply inits_app; auto. destruct O as [->|(s2 & h & _ & ->)]; intros y Iy; cbn in Iy; [tauto|]. destruct Iy as [<-|[]]. eauto. }
    destruct (seq_of dconv d) as [n|er] eqn:SQ.
    + destruct ok.
      * assert (NN : forall i j, ODeliver (pe_id x) n <> OSend i j) by discriminate.
        assert (S1 : same s (setLast n s)) by (split; reflexivity).
        destruct (emit_send _ _ _ (fun z => SNext ((su_last z + 1) mod two64)) s (setLast n s) _ _ _ (inv_last n s V) L NN eq_refl eq_refl S1 H) as (-> & X & SS & F & G & o & o2 & Io & -> & O).
        split; [|auto]. unfold called. splits; auto.
        -- eapply CDeliver; eauto. destruct O as [->|(s2 & h & K & ->)]; auto. right. exists h. destruct K as (_ & _ & _ & K & _). rewrite K. reflexivity.
      * apply (B (setLast n s)); auto using inv_last. split; reflexivity.
    + destruct er; try (injection H as <- <- <-; split; [|discriminate]; unfold called; splits;
        [apply ext_cons; [discriminate|apply ext_refl; auto]|apply CUb1|intros _ X; destruct X; left; reflexivity|discriminate]).
      apply (B s); auto. split; reflexivity.
Qed.

Lemma timeout_called : forall id acts t s s' c threw, inv s -> su_alive s = true ->
  afterTimeout id acts t s = (s', c, threw) -> called s s' c threw /\ (threw = true -> t = true).
Proof.
  intros id acts t s s' c threw V L H. unfold afterTimeout in H. destruct (shouldStop s) as [s1 b] eqn:E. destruct b.
  - injection H as <- <- <-. split; [eapply stop_called; eauto|discriminate].
  - destruct (shouldStop_spec _ _ _ E) as [(X & _)|(_ & -> & R & _)]; [discriminate|].
    assert (NN : forall i j, OLate id <> OSend i j) by discriminate. assert (S1 : same s s) by (split; reflexivity).
    destruct (emit_send _ _ _ (fun _ => SInitial) s _ _ _ _ V L NN eq_refl eq_refl S1 H) as (-> & X & SS & F & G & o & o2 & Io & -> & O). split; [|auto].
    unfold called. splits; auto. apply CCall; auto; try discriminate. apply inits_app; auto. destruct O as [->|(s2 & h & _ & ->)]; intros y Iy; cbn in Iy; [tauto|]. destruct Iy as [<-|[]]. eauto.
Qed.

Lemma nack_called : forall id k r acts t s s' c threw, inv s -> su_alive s = true ->
  afterReceiveNack conv dconv prefix id k r acts t s = (s', c, threw) -> called s s' c threw /\ (threw = true -> t = true).
Proof.
  intros id k r acts t s s' c threw V L H. unfold afterReceiveNack in H. destruct (shouldStop s) as [s1 b] eqn:E. destruct b.
  - injection H as <- <- <-. split; [eapply stop_called; eauto|discriminate].
  - destruct (shouldStop_spec _ _ _ E) as [(X & _)|(_ & -> & R & _)]; [discriminate|].
    match type of H with match ?m with _ => _ end = _ => destruct m as [n|er] end.
    + assert (NN : forall i j, ONack id n <> OSend i j) by discriminate.
      destruct (emit_ext _ _ _ _ _ _ _ _ V L NN H) as (-> & o1 & I1 & Q). split; auto. destruct t.
      * destruct Q as (-> & X & K & G). unfold called. splits; auto; try discriminate.
        apply CCall; auto; try discriminate. destruct K as (_ & _ & _ & _ & _ & A & B & _). split; auto.
      * destruct Q as (s1 & o2 & F & -> & X & K). cbv zeta in F. destruct K as (_ & _ & _ & _ & _ & A & B & _).
        destruct X as (V1 & L1 & X1).
        assert (Y : forall s2, inv s2 -> su_queue s2 = su_queue s1 -> su_table s2 = su_table s1 -> su_next s2 = su_next s1 -> su_alive s2 = su_alive s1 -> forall o, (forall i j, ~ In (OSend i j) o) -> ext s s2 (ONack id n :: o1 ++ o)).
        { intros s2 V2 Q2 T2 N2 A2 o NO. change (ext s s2 ((ONack id n :: o1) ++ o)). apply ext_trans with (b := s1); [unfold ext; auto|]. unfold ext. rewrite Q2, T2, N2. splits; auto. intros i j I. destruct (NO i j I). }
        destruct (backoff (if su_lastNack s1 =? n then su_attempts s1 + 1 else 1) r) as [d|] eqn:BK; injection F as <- <-.
        -- unfold called. splits; try discriminate.
           ++ apply Y; try reflexivity; [|intros i j [C|[]]; discriminate]. apply inv_timer; [cbn; congruence|]. apply inv_nacks. exact V1.
           ++ eapply CWait with (r := r); eauto; cbn; rewrite A, B; congruence.
           ++ intros _ _ _. left. reflexivity.
        -- unfold called. splits; try discriminate.
           ++ apply Y; try reflexivity; [|intros i j [C|[]]; discriminate]. apply inv_nacks. exact V1.
           ++ apply CUb2. auto.
           ++ intros _ N. destruct N. right. apply in_app_iff. right. left. reflexivity.
    + injection H as <- <- <-. split; [|discriminate]. unfold called. splits; [apply ext_cons; [discriminate|apply ext_refl; auto]|apply CUb1| |discriminate].
      intros _ X. destruct X. left. reflexivity.
Qed.

Definition stepped (s s' : sub) (c : list sout) : Prop :=
  inv s' /\ chunk s s' c /\ (su_next s <= su_next s')%nat /\
  (forall i j, In (TExpress i j) (su_queue s') -> In (TExpress i j) (su_queue s) \/ In (OSend i j) c) /\
  (forall x, In x (su_table s') -> In (TExpress (pe_id x) (pe_kind x)) (su_queue s) \/ exists y, In y (su_table s) /\ pe_id y = pe_id x /\ pe_kind y = pe_kind x) /\
  (forall i j, In (OSend i j) c -> (su_next s <= i < su_next s')%nat).

Lemma stepped_same : forall s, inv s -> stepped s s [].
Proof.
  intros s V. unfold stepped. splits; auto.
  - apply CSends; [intros x []|split; auto].
  - intros x I. right. eauto.
  - intros i j [].
Qed.
Lemma ext_stepped : forall s s' c, ext s s' c -> chunk s s' c -> stepped s s' c.
Proof. intros s s' c (A & B & C & D & E & F) X. unfold stepped. splits; auto. rewrite C. intros x I. right. eauto. Qed.

Lemma lookup_in : forall id t x, lookup id t = Some x -> In x t /\ pe_id x = id.
Proof. intros id t x H. apply find_some in H as [I E]. split; auto. apply Nat.eqb_eq. exact E. Qed.
Lemma untime_in : forall i t x, In x (untime i t) -> exists y, In y t /\ pe_id y = pe_id x /\ pe_kind y = pe_kind x /\ (pe_id x <> i -> y = x).
Proof.
  intros i t x I. unfold untime in I. apply in_map_iff in I as (y & <- & I). exists y. destruct (Nat.eqb_spec (pe_id y) i) as [->|N]; cbn; splits; auto. tauto.
Qed.

Lemma chunk_face : forall s s' c q t, chunk s s' c -> chunk s (setFace q t s') c.
Proof.
  intros s s' c q t H. destruct H.
  - apply CSends; auto.
  - apply CCall; auto.
  - eapply CDeliver; eauto.
  - eapply CWait; eauto.
  - apply CUb1.
  - apply CUb2; auto.
Qed.
Lemma answer_step : forall id s fits kept f s' c (t : bool), inv s ->
  (forall x, In x (su_table s) -> pe_id x = id -> fits x = true -> su_alive s = true -> forall s1 c1 threw, f (pe_kind x) s = (s1, c1, threw) -> called s s1 c1 threw /\ (threw = true -> t = true)) ->
  (kept = (fun l => l) \/ kept = untime id) ->
  su_answer id s fits kept f = (s', c) ->
  stepped s s' c /\ (good s -> ~ In OUb c -> t = false \/ kept = (fun l => l) -> good s') /\
  (t = false -> forall i n, In (ODeliver i n) c -> i = id -> ~ In i (map pe_id (su_table s'))).
Proof.
  intros id s fits kept f s' c t V F K H. unfold su_answer in H.
  assert (N0 : stepped s s [] /\ (good s -> ~ In OUb [] -> t = false \/ kept = (fun l => l) -> good s) /\ (t = false -> forall i n, In (ODeliver i n) [] -> i = id -> ~ In i (map pe_id (su_table s)))).
  { splits; auto using stepped_same. }
  destruct (lookup id (su_table s)) as [x|] eqn:LK; [|injection H as <- <-; exact N0]. apply lookup_in in LK as [I ID].
  destruct (fits x) eqn:FT; [|injection H as <- <-; exact N0]. destruct (su_alive s) eqn:L.
  - destruct (f (pe_kind x) s) as [[s1 c1] threw] eqn:E. injection H as <- <-. destruct (F x I ID FT eq_refl _ _ _ E) as [(X & CH & FR & GD) TT].
    destruct X as (V1 & L1 & T1 & N1 & Q1 & S1).
    assert (NDT : NoDup (map pe_id (su_table s1))). { eapply nodup_right. apply (v_nodup _ V1). }
    split; [|split].
    + unfold stepped. cbn. splits; auto.
      * apply inv_table; [exact V1| |]; destruct threw.
        -- destruct K as [->| ->]; [auto|]. rewrite ids_untime. auto.
        -- intros i Ii. apply ids_remove in Ii as [Ii _]. exact Ii.
        -- destruct K as [->| ->]; [auto|]. rewrite ids_untime. auto.
        -- apply nodup_remove_id. exact NDT.
      * apply chunk_face. exact CH.
      * rewrite T1. intros y Iy. right. destruct threw.
        -- destruct K as [->| ->]; eauto. apply untime_in in Iy as (z & A & B & C & _). eauto.
        -- apply in_remove in Iy as [Iy _]. eauto.
    + intros G NU TK [A R]. cbn in A, R. destruct threw.
      * assert (Kt : kept = (fun l => l)). { destruct TK as [->|TK]; auto. specialize (TT eq_refl). discriminate. }
        subst kept. exact (GD eq_refl G (conj A R)).
      * destruct (FR eq_refl NU R) as [Q|(h & k & Hh & Lh & Ih)]; [left; exact Q|right]. exists h, k. cbn. auto.
    + intros -> i n Iv ->. destruct threw; [specialize (TT eq_refl); discriminate|]. cbn. intro Z. apply ids_remove in Z as [_ Z]. congruence.
  - injection H as <- <-. split; [|split].
    + unfold stepped. splits; auto; [apply CUb1|intros y Iy; right; eauto|intros i j [X|[]]; discriminate].
    + intros _ N. destruct N. left. reflexivity.
    + intros _ i n [X|[]]. discriminate.
Qed.

Definition thrown (e : sev) : bool := match e with EvData _ _ _ _ t | EvNack _ _ _ t | EvTimeout _ _ t => t | _ => false end.
Lemma step_spec : forall e s s' c, inv s -> step e s = (s', c) ->
  stepped s s' c /\ (good s -> ~ In OUb c -> quiet_timeout e -> good s') /\
  (quiet e -> forall i n, In (ODeliver i n) c -> ~ In i (map pe_id (su_table s'))).
Proof.
  intros e s s' c V H. destruct e as [a| | |id d ok acts t|id r acts t|id acts t|]; cbn [su_step] in H.
  - destruct (su_alive s) eqn:L; [|injection H as <- <-; splits; auto using stepped_same; intros _ i n []].
    destruct (act_ext _ _ _ _ V L H) as (X & K & I & G). splits; auto.
    + apply ext_stepped; auto. apply CSends; auto. destruct K as (_ & _ & _ & _ & _ & A & B & _). split; auto.
    + intros _ i n Z. apply I in Z as (j & Z). discriminate.
  - destruct (su_alive s) eqn:L; [|injection H as <- <-; splits; auto using stepped_same; intros _ i n []].
    injection H as <- <-. splits.
    + unfold stepped. cbn. splits; auto.
      * eapply inv_drop; try exact V; try reflexivity.
      * apply CSends; [intros x []|split; reflexivity].
      * intros i j Z. left. apply in_app_iff in Z as [Z|Z]; auto. apply in_cancel in Z as (h & _ & Z). discriminate.
      * intros x Z. right. eauto.
      * intros i j [].
    + intros _ _ _ [Z _]. discriminate.
    + intros _ i n [].
  - destruct (su_queue s) as [|[i k|i] q] eqn:Q.
    + injection H as <- <-. split; [|split]; auto using stepped_same.
    + injection H as <- <-. destruct V as [A B C D E F G]. unfold in_face in *. rewrite Q in *. cbn in D.
      splits.
      * unfold stepped. cbn. splits; auto.
        -- constructor; unfold in_face; cbn; auto.
           ++ intros j Ij. destruct (A j) as [Z|[Z|Z]]; auto; [|discriminate]. destruct Ij as [(k' & Z)|Z]; [left; exists k'; right; exact Z|].
              rewrite map_app in Z. apply in_app_iff in Z as [Z|[<-|[]]]; auto. cbn. left. eexists. left. reflexivity.
           ++ intros h Hh. destruct (B h Hh) as [X Y]. split; auto. intro Z. apply Y. right. exact Z.
           ++ intros j [[(k' & Z)|Z]|Z].
              ** apply C. left. left. exists k'. right. exact Z.
              ** rewrite map_app in Z. apply in_app_iff in Z as [Z|[<-|[]]]; [apply C; auto|]. apply C. left. left. cbn. eexists. left. reflexivity.
              ** apply C. right. right. exact Z.
           ++ cbn in E. rewrite map_app, app_assoc. cbn. apply NoDup_cons_iff in E as [E1 E2]. apply NoDup_Add with (a := i) (l := qids q ++ map pe_id (su_table s)).
              { rewrite <- (app_nil_r (qids q ++ map pe_id (su_table s))) at 1. apply Add_app. } split; auto.
        -- apply CSends; [intros x []|split; reflexivity].
        -- intros i0 j Z. left. rewrite Q. right. exact Z.
        -- intros x Z. rewrite Q. apply in_app_iff in Z as [Z|[<-|[]]]; [right; eauto|]. left. left. reflexivity.
        -- intros i0 j [].
      * intros Gd _ _ [Al R]. cbn in Al, R. destruct (Gd (conj Al R)) as [T|(h & k' & Hh & [Z|Z])]; [left; exact T| |]; right; exists h, k'; cbn; split; auto.
        -- rewrite Q in Z. destruct Z as [[= -> ->]|Z]; auto. right. apply in_app_iff. right. left. reflexivity.
        -- right. apply in_app_iff. auto.
      * intros _ i0 n [].
    + injection H as <- <-. destruct V as [A B C D E F G]. unfold in_face in *. rewrite Q in *. cbn in D. destruct D as [D1 D2].
      splits.
      * unfold stepped. cbn. splits; auto.
        -- constructor; unfold in_face; cbn; auto.
           ++ intros j Ij. assert (J : j <> i). { intros ->. destruct Ij as [(k & Z)|Z]; [destruct (D1 _ Z)|]. apply ids_remove in Z as [_ Z]. congruence. }
              destruct (A j) as [Z|[Z|Z]]; auto; [|congruence]. destruct Ij as [(k & Z)|Z]; [left; exists k; right; exact Z|]. apply ids_remove in Z as [Z _]. auto.
           ++ intros h Hh. destruct (B h Hh) as [X Y]. split; auto. intro Z. apply Y. right. exact Z.
           ++ intros j [[(k & Z)|Z]|Z].
              ** apply C. left. left. exists k. right. exact Z.
              ** apply ids_remove in Z as [Z _]. apply C. auto.
              ** apply C. right. right. exact Z.
           ++ cbn in E. eapply nodup_app_sub; [exact E|apply nodup_remove_id; eapply nodup_right; exact E|]. intros j Z. apply ids_remove in Z as [Z _]. exact Z.
        -- apply CSends; [intros x []|split; reflexivity].
        -- intros i0 j Z. left. rewrite Q. right. exact Z.
        -- intros x Z. right. apply in_remove in Z as [Z _]. eauto.
        -- intros i0 j [].
      * intros Gd _ _ [Al R]. cbn in Al, R. destruct (Gd (conj Al R)) as [T|(h & k & Hh & Z)]; [left; exact T|]. right. exists h, k. cbn. split; auto. rewrite Q in Z.
        destruct Z as [[Z|Z]|Z]; [discriminate|auto|]. right. apply in_remove. split; auto. cbn. intros ->. destruct (B _ Hh) as [_ Y]. apply Y. left. reflexivity.
      * intros _ i0 n [].
  - unshelve epose proof (answer_step id s _ _ _ s' c t V _ _ H) as (X & Y & Z); [|auto|].
    + intros x I ID M L s1 c1 threw E. cbn in E. rewrite <- ID in E. exact (data_called x d ok acts t s s1 c1 threw V L I M E).
    + splits; auto. cbn. intros -> i n I. apply (Z eq_refl i n I). destruct X as (_ & CH & _).
      assert (ALL : forall i n, In (ODeliver i n) c -> i = id).
      { clear - H. intros i n I. unfold su_answer, afterReceiveData in H. destruct (lookup id (su_table s)); [|injection H as <- <-; destruct I].
        destruct (matches conv prefix (pe_kind p) d); [|injection H as <- <-; destruct I]. destruct (su_alive s); [|injection H as <- <-; destruct I as [I|[]]; discriminate].
        destruct (shouldStop s) as [s1 b]. destruct b; [injection H as <- <-; destruct I|].
        assert (AI : forall l s s' o, su_acts l s = (s', o) -> forall i n, ~ In (ODeliver i n) o).
        { clear. assert (SI : forall s s' o, sendInitial s = (s', o) -> forall i n, ~ In (ODeliver i n) o).
          { intros s s' o. unfold sendInitial. destruct (shouldStop s) as [s1 b]. destruct b; intros [= <- <-] i n I; [exact I|]. destruct I as [I|[]]. discriminate. }
          induction l as [|a l IH]; intros s s' o H i n I; cbn in H; [injection H as <- <-; exact I|].
          destruct (su_act a s) as [s1 o1] eqn:E1. destruct (su_acts l s1) as [s2 o2] eqn:E2. injection H as <- <-. apply in_app_iff in I as [I|I]; [|eapply IH; eauto].
          destruct a; cbn in E1; [|injection E1 as <- <-; exact I|injection E1 as <- <-; exact I]. unfold su_start in E1. destruct (su_running s); [injection E1 as <- <-; exact I|]. eapply SI; eauto. }
        assert (SN : forall k s s' o, (let (s1, b) := shouldStop s in if b then (s1, []) else su_send (k s1) s1) = (s', o) -> forall i n, ~ In (ODeliver i n) o).
        { clear. intros k s s' o. destruct (shouldStop s) as [s1 b]. destruct b; intros [= <- <-] i n I; [exact I|]. destruct I as [I|[]]. discriminate. }
        assert (EM : forall x k s s' o th, (forall s s' o, k s = (s', o) -> forall i n, ~ In (ODeliver i n) o) -> su_emit x acts false k s = (s', o, th) -> forall i n, In (ODeliver i n) o -> x = ODeliver i n).
        { clear - AI. intros x k s s' o th SK H i n I. unfold su_emit in H. destruct (su_acts acts s) as [s1 o1] eqn:E1. destruct (k s1) as [s2 o2] eqn:E2. injection H as <- <- _.
          destruct I as [I|I]; auto. apply in_app_iff in I as [I|I]; [destruct (AI _ _ _ _ E1 _ _ I)|destruct (SK _ _ _ E2 _ _ I)]. }
        destruct (seq_of dconv d) as [m|er].
        - destruct ok.
          + destruct (su_emit (ODeliver id m) acts false sendNext (setLast m s1)) as [[s2 o2] th] eqn:E. injection H as <- <-.
            pose proof (EM _ _ _ _ _ _ (SN (fun z => SNext ((su_last z + 1) mod two64))) E _ _ I) as X. congruence.
          + destruct (su_emit (OBad id) acts false sendInitial (setLast m s1)) as [[s2 o2] th] eqn:E. injection H as <- <-.
            pose proof (EM _ _ _ _ _ _ (SN (fun _ => SInitial)) E _ _ I) as X. discriminate.
        - destruct er; try (injection H as <- <-; destruct I as [I|[]]; discriminate).
          destruct (su_emit (OBad id) acts false sendInitial s1) as [[s2 o2] th] eqn:E. injection H as <- <-.
          pose proof (EM _ _ _ _ _ _ (SN (fun _ => SInitial)) E _ _ I) as X. discriminate. }
      eapply ALL; eauto.
  - unshelve epose proof (answer_step id s _ _ _ s' c t V _ _ H) as (X & Y & Z); [|auto|].
    + intros x I ID M L s1 c1 threw E. cbn in E. exact (nack_called _ _ _ _ _ _ _ _ _ V L E).
    + splits; auto. intros _ i n I. destruct X as (_ & CH & _). exfalso. clear - H CH I V.
      inversion CH as [o IO SA E1|x o N1 N2 N3 N4 IO SA E1|x d n0 o o2 Ix M SQ IO O2 SA E1|j n0 o d r0 IO LN AT BK E1|E1|j n0 o IO E1]; subst c.
      * apply IO in I as (j & I). discriminate.
      * destruct I as [I|I]; [destruct (N1 _ _ I)|]. apply IO in I as (j & I). discriminate.
      * unfold su_answer, afterReceiveNack in H. destruct (lookup id (su_table s)); [|discriminate]. destruct (su_alive s); [|discriminate].
        destruct (shouldStop s) as [s1 b]. destruct b; [discriminate|].
        match type of H with context [match ?m with Ok _ => _ | Err _ => _ end] => destruct m as [z|er] end; [|discriminate].
        unfold su_emit in H. destruct (su_acts acts s1) as [s2 o3]. destruct t; [discriminate|].
        destruct (backoff (if su_lastNack s2 =? z then su_attempts s2 + 1 else 1) r); discriminate.
      * destruct I as [I|I]; [discriminate|]. apply in_app_iff in I as [I|[I|[]]]; [|discriminate]. apply IO in I as (l & I). discriminate.
      * destruct I as [I|[]]. discriminate.
      * destruct I as [I|I]; [discriminate|]. apply in_app_iff in I as [I|[I|[]]]; [|discriminate]. apply IO in I as (l & I). discriminate.
  - unshelve epose proof (answer_step id s _ _ _ s' c t V _ _ H) as (X & Y & Z); [|auto|].
    + intros x I ID M L s1 c1 threw E. cbn in E. exact (timeout_called _ _ _ _ _ _ _ V L E).
    + splits; auto. intros _ i n I. destruct X as (_ & CH & _). exfalso. clear - H CH I V.
      inversion CH as [o IO SA E1|x o N1 N2 N3 N4 IO SA E1|x d n0 o o2 Ix M SQ IO O2 SA E1|j n0 o d r0 IO LN AT BK E1|E1|j n0 o IO E1]; subst c.
      * apply IO in I as (j & I). discriminate.
      * destruct I as [I|I]; [destruct (N1 _ _ I)|]. apply IO in I as (j & I). discriminate.
      * unfold su_answer, afterTimeout in H. destruct (lookup id (su_table s)); [|discriminate]. destruct (pe_timed p); [|discriminate]. destruct (su_alive s); [|discriminate].
        destruct (shouldStop s) as [s1 b]. destruct b; [discriminate|].
        unfold su_emit in H. destruct (su_acts acts s1) as [s2 o3]. destruct t; [discriminate|]. destruct (sendInitial s2) as [s4 o4]. discriminate.
      * destruct I as [I|I]; [discriminate|]. apply in_app_iff in I as [I|[I|[]]]; [|discriminate]. apply IO in I as (l & I). discriminate.
      * destruct I as [I|[]]. discriminate.
      * destruct I as [I|I]; [discriminate|]. apply in_app_iff in I as [I|[I|[]]]; [|discriminate]. apply IO in I as (l & I). discriminate.
  - destruct (su_timer s) eqn:T; [|injection H as <- <-; splits; auto using stepped_same; intros _ i n []].
    assert (L : su_alive s = true). { destruct (su_alive s) eqn:L; auto. destruct (v_dead _ V L). congruence. }
    assert (V1 : inv (setTimer false s)) by (apply inv_timer; auto).
    destruct (send_ext (fun _ => SInitial) _ _ _ V1 L H) as (X & K & G & O).
    assert (IO : inits c). { destruct O as [[-> _]|(-> & _)]; intros x I; cbn in I; [tauto|]. destruct I as [<-|[]]. eauto. }
    splits; auto.
    + apply ext_stepped; [eapply ext_weaken; eauto|]. apply CSends; auto. destruct K as (_ & _ & _ & _ & _ & A & B & _). split; auto.
    + intros _ i n Z. apply IO in Z as (j & Z). discriminate.
Qed.

Lemma run_snoc : forall l e s, su_run conv dconv prefix (l ++ [e]) s =
  let (s1, o1) := su_run conv dconv prefix l s in let (s2, o2) := step e s1 in (s2, o1 ++ o2).
Proof.
  induction l as [|x l IH]; intros e s; cbn [su_run app].
  - destruct (step e s) as [s1 o1]. rewrite app_nil_r. reflexivity.
  - destruct (step x s) as [s1 o1]. rewrite IH. destruct (su_run conv dconv prefix l s1) as [s2 o2]. destruct (step e s2) as [s3 o3]. rewrite app_assoc. reflexivity.
Qed.

Lemma split_app : forall A (o c a : list A) x b, o ++ c = a ++ x :: b ->
  (exists b', o = a ++ x :: b') \/ (exists a', a = o ++ a' /\ c = a' ++ x :: b).
Proof.
  induction o as [|y o IH]; intros c a x b H; cbn in H.
  - right. exists a. auto.
  - destruct a as [|z a]; cbn in H.
    + injection H as <- E. left. exists o. reflexivity.
    + injection H as <- E. destruct (IH _ _ _ _ E) as [(b' & ->)|(a' & -> & ->)]; [left; exists b'; reflexivity|right; exists a'; auto].
Qed.

Definition next_ok (o : list sout) : Prop :=
  forall a j m b, o = a ++ OSend j (SNext m) :: b ->
  exists i n c1 c2, a = c1 ++ ODeliver i n :: c2 /\ m = (n + 1) mod 2 ^ 64 /\ forall i' n', ~ In (ODeliver i' n') c2.

Lemma inits_no_deliver : forall o i n, inits o -> ~ In (ODeliver i n) o.
Proof. intros o i n I H. apply I in H as (j & H). discriminate. Qed.
Lemma in_mid : forall A (a : list A) x b, In x (a ++ x :: b).
Proof. intros. apply in_app_iff. right. left. reflexivity. Qed.

(* where a chunk can have an Interest for a number, and a notification *)
Lemma chunk_next : forall s s' c, chunk s s' c -> forall a j m b, c = a ++ OSend j (SNext m) :: b ->
  exists i n c2, a = ODeliver i n :: c2 /\ m = (n + 1) mod 2 ^ 64 /\ forall i' n', ~ In (ODeliver i' n') c2.
Proof.
  intros s s' c H a j m b E.
  assert (T : forall o o2, inits o -> forall a, o ++ o2 = a ++ OSend j (SNext m) :: b -> exists a', a = o ++ a' /\ o2 = a' ++ OSend j (SNext m) :: b).
  { intros o o2 IO a0 E0. destruct (split_app _ _ _ _ _ _ E0) as [(b' & ->)|X]; auto. destruct (IO _ (in_mid _ _ _ _)) as (i & X). discriminate. }
  destruct H as [o IO SA|x o N1 N2 N3 N4 IO SA|x d n0 o o2 Ix M SQ IO O2 SA|i n0 o d r0 IO LN AT BK| |i n0 o IO].
  - subst o. destruct (IO _ (in_mid _ _ _ _)) as (i & X). discriminate.
  - destruct a as [|y a]; cbn in E; injection E as -> E; [destruct (N2 _ _ eq_refl)|]. subst o. destruct (IO _ (in_mid _ _ _ _)) as (i & X). discriminate.
  - destruct a as [|y a]; cbn in E; [discriminate|]. injection E as <- E. destruct (T _ _ IO _ E) as (a' & -> & ->). destruct O2 as [O2|(h & O2)]; [destruct a'; discriminate|].
    destruct a' as [|z a']; cbn in O2; [|injection O2 as _ O2; destruct a'; discriminate]. injection O2 as E1 E2 E3; subst m. rewrite app_nil_r.
    exists (pe_id x), n0, o. splits; auto. intros i' n'. apply inits_no_deliver. exact IO.
  - destruct a as [|y a]; cbn in E; [discriminate|]. injection E as <- E. destruct (T _ _ IO _ E) as (a' & -> & O2). destruct a' as [|z a']; cbn in O2; [discriminate|injection O2 as _ O2; destruct a'; discriminate].
  - destruct a as [|y a]; cbn in E; [discriminate|injection E as _ E; destruct a; discriminate].
  - destruct a as [|y a]; cbn in E; [discriminate|]. injection E as <- E. destruct (T _ _ IO _ E) as (a' & -> & O2). destruct a' as [|z a']; cbn in O2; [discriminate|injection O2 as _ O2; destruct a'; discriminate].
Qed.
Lemma chunk_deliver : forall s s' c, chunk s s' c -> forall a j m b, c = a ++ ODeliver j m :: b ->
  a = [] /\ exists x d, In x (su_table s) /\ pe_id x = j /\ matches conv prefix (pe_kind x) d = true /\ seq_of dconv d = Ok m /\ forall i n, ~ In (ODeliver i n) b.
Proof.
  intros s s' c H a j m b E.
  assert (T : forall o o2, inits o -> (forall i n, ~ In (ODeliver i n) o2) -> forall a, o ++ o2 = a ++ ODeliver j m :: b -> False).
  { intros o o2 IO N2 a0 E0. destruct (split_app _ _ _ _ _ _ E0) as [(b' & ->)|(a' & _ & ->)]; [destruct (IO _ (in_mid _ _ _ _)) as (i & X); discriminate|]. destruct (N2 _ _ (in_mid _ _ _ _)). }
  destruct H as [o IO SA|x o N1 N2 N3 N4 IO SA|x d n0 o o2 Ix M SQ IO O2 SA|i n0 o d r0 IO LN AT BK| |i n0 o IO].
  - subst o. destruct (IO _ (in_mid _ _ _ _)) as (i & X). discriminate.
  - destruct a as [|y a]; cbn in E; injection E as -> E; [destruct (N1 _ _ eq_refl)|]. subst o. destruct (IO _ (in_mid _ _ _ _)) as (i & X). discriminate.
  - assert (N2 : forall i n, ~ In (ODeliver i n) o2). { intros i n I. destruct O2 as [->|(h & ->)]; [destruct I|]. destruct I as [I|[]]. discriminate. }
    destruct a as [|y a]; cbn in E; injection E as E1 E2; [|exfalso; eapply T; eauto]. intros. subst. split; auto. exists x, d. splits; auto.
    intros i n I. apply in_app_iff in I as [I|I]; [apply (inits_no_deliver _ _ _ IO I)|apply (N2 _ _ I)].
  - destruct a as [|y a]; cbn in E; [discriminate|]. injection E as <- E. exfalso. eapply T; [exact IO| |exact E]. intros i' n' [X|[]]. discriminate.
  - destruct a as [|y a]; cbn in E; [discriminate|injection E as _ E; destruct a; discriminate].
  - destruct a as [|y a]; cbn in E; [discriminate|]. injection E as <- E. exfalso. eapply T; [exact IO| |exact E]. intros i' n' [X|[]]. discriminate.
Qed.

(* ---- numbers and names ---- *)
Lemma last_key : forall n c, nm_get (-1) n = Ok c -> exists p, nkey n = p ++ [ckey c].
Proof.
  intros n c H. unfold nm_get in H. destruct (nm_index (-1) n) as [j|] eqn:E; [|discriminate]. unfold of_opt in H. destruct (nth_error (n_comps n) j) as [x|] eqn:Nn; [|discriminate]. injection H as ->.
  assert (J : j = Nat.pred (List.length (n_comps n)) /\ n_comps n <> []).
  { unfold nm_index, nm_size, nlen in E. change (-1 <? 0)%Z with true in E. cbv iota in E.
    destruct ((-1 + Z.of_N (N.of_nat (List.length (n_comps n))) <? 0)%Z) eqn:Z1; cbn [orb] in E; [discriminate|].
    destruct (Z.of_N (N.of_nat (List.length (n_comps n))) <=? -1 + Z.of_N (N.of_nat (List.length (n_comps n))))%Z; [discriminate|]. assert (EJ : j = Z.to_nat (-1 + Z.of_N (N.of_nat (List.length (n_comps n))))) by congruence. clear E.
    split; [lia|]. intro X. rewrite X in Z1. discriminate. }
  destruct J as [-> NE]. destruct (exists_last NE) as (l & z & L). rewrite L in Nn. rewrite app_length in Nn. cbn in Nn. replace (Nat.pred (List.length l + 1)) with (List.length l) in Nn by lia.
  rewrite nth_error_app2, Nat.sub_diag in Nn by lia. cbn in Nn. injection Nn as ->. exists (map ckey l). unfold nkey. rewrite L, map_app. reflexivity.
Qed.
Lemma toKind_key : forall k a b, ckey a = ckey b -> toKind dconv k a = toKind dconv k b.
Proof.
  intros k [ta ha va] [tb hb vb] E. unfold ckey in E. cbn in E. injection E as -> ->. unfold toKind, toNumber, isNumber, toNumberWithMarker, isNumberWithMarker. cbn. reflexivity.
Qed.
Lemma next_number : can_decode dconv conv = true -> forall m d n, m < 2 ^ 64 -> matches conv prefix (SNext m) d = true -> seq_of dconv d = Ok n -> n = m.
Proof.
  intros CD m d n B M H. unfold matches, int_name in M. destruct (numeric_round_trip_ex conv dconv KSequenceNumber m B CD) as (c & F & _ & T). rewrite F in M. cbn [bind] in M.
  apply nm_equals_iff in M. unfold seq_of in H. destruct (nm_get (-1) d) as [x|] eqn:G; [|discriminate]. cbn [bind] in H.
  apply last_key in G as (p & G). rewrite <- M in G. unfold nkey, nm_append in G. cbn in G. rewrite map_app in G. cbn in G. apply app_inj_tail in G as [_ G].
  rewrite <- (toKind_key KSequenceNumber _ _ G) in H. congruence.
Qed.

(* ---- histories ---- *)
Record hist (s : sub) (o : list sout) : Prop := mkHist {
  h_inv : inv s;
  h_queue : forall i k, In (TExpress i k) (su_queue s) -> In (OSend i k) o;
  h_table : forall x, In x (su_table s) -> In (OSend (pe_id x) (pe_kind x)) o;
  h_ids : forall i k, In (OSend i k) o -> (i < su_next s)%nat;
  h_next : next_ok o }.

Lemma hist_run : forall l s o, su_run conv dconv prefix l su_new = (s, o) -> hist s o.
Proof.
  induction l as [|e l IH] using rev_ind; intros s o H.
  - injection H as <- <-. constructor.
    + apply inv_new.
    + intros i k [].
    + intros x [].
    + intros i k [].
    + intros a j m b E. destruct a; discriminate.
  - rewrite run_snoc in H. destruct (su_run conv dconv prefix l su_new) as [s1 o1] eqn:E1. destruct (step e s1) as [s2 o2] eqn:E2. injection H as <- <-.
    destruct (IH _ _ eq_refl) as [V Q T D X]. destruct (step_spec _ _ _ _ V E2) as ((V2 & CH & NX & Q2 & T2 & D2) & _ & _).
    constructor; auto.
    + intros i k I. apply in_app_iff. destruct (Q2 _ _ I); auto.
    + intros x I. apply in_app_iff. left. destruct (T2 _ I) as [Z|(y & Z & <- & <-)]; auto.
    + intros i k I. apply in_app_iff in I as [I|I]; [specialize (D _ _ I); lia|specialize (D2 _ _ I); lia].
    + intros a j m b E. destruct (split_app _ _ _ _ _ _ E) as [(b' & E')|(a' & -> & E')]; [exact (X _ _ _ _ E')|].
      destruct (chunk_next _ _ _ CH _ _ _ _ E') as (i & n & c2 & -> & A & B). exists i, n, o1, c2. auto.
Qed.

Lemma run_in_sequence : can_decode dconv conv = true -> forall l s o, su_run conv dconv prefix l su_new = (s, o) -> in_sequence o.
Proof.
  intro CD. induction l as [|e l IH] using rev_ind; intros s o H.
  - injection H as <- <-. intros a j m b E. destruct a; discriminate.
  - rewrite run_snoc in H. destruct (su_run conv dconv prefix l su_new) as [s1 o1] eqn:E1. destruct (step e s1) as [s2 o2] eqn:E2. injection H as <- <-.
    pose proof (hist_run _ _ _ E1) as HR. destruct HR as [V Q T D X]. destruct (step_spec _ _ _ _ V E2) as ((V2 & CH & NX & Q2 & T2 & D2) & _ & _).
    intros a j m b E. destruct (split_app _ _ _ _ _ _ E) as [(b' & E')|(a' & -> & E')]; [exact (IH _ _ eq_refl _ _ _ _ E')|].
    destruct (chunk_deliver _ _ _ CH _ _ _ _ E') as (-> & x & d & Ix & <- & M & SQ & _). rewrite app_nil_r. apply T in Ix. apply in_split in Ix as (a1 & a2 & Ex).
    exists (pe_kind x), a1, a2. split; auto. destruct (pe_kind x) as [|k] eqn:K; auto. right.
    destruct (X _ _ _ _ Ex) as (i & n & c1 & c2 & A & B & C).
    assert (Z : m = k). { apply (next_number CD k d); auto. rewrite B. apply N.mod_upper_bound. lia. } subst m.
    split; auto. exists i, n, c1, c2. auto.
Qed.

Lemma delivered_in : forall o i, In i (delivered_for o) <-> exists n, In (ODeliver i n) o.
Proof.
  intros o i. unfold delivered_for. rewrite in_flat_map. split.
  - intros (x & I & H). destruct x; cbn in H; try tauto. destruct H as [<-|[]]. eauto.
  - intros (n & I). exists (ODeliver i n). split; auto. left. reflexivity.
Qed.
Lemma chunk_delivered : forall s s' c, chunk s s' c -> delivered_for c = [] \/ exists x, delivered_for c = [pe_id x] /\ In x (su_table s).
Proof.
  intros s s' c H.
  assert (N : forall o, (forall i n, ~ In (ODeliver i n) o) -> delivered_for o = []).
  { intros o N. destruct (delivered_for o) as [|i l] eqn:E; auto. assert (I : In i (delivered_for o)) by (rewrite E; left; reflexivity). apply delivered_in in I as (n & I). destruct (N _ _ I). }
  destruct (delivered_for c) as [|i l] eqn:E; auto. right. assert (I : In i (delivered_for c)) by (rewrite E; left; reflexivity). apply delivered_in in I as (n & I).
  apply in_split in I as (a & b & ->). destruct (chunk_deliver _ _ _ H _ _ _ _ eq_refl) as (-> & x & d & Ix & <- & _ & _ & B). exists x. split; auto. rewrite <- E. change (pe_id x :: delivered_for b = [pe_id x]). rewrite (N b B). reflexivity.
Qed.
Lemma run_once : forall l s o, Forall quiet l -> su_run conv dconv prefix l su_new = (s, o) -> NoDup (delivered_for o) /\ (forall i, In i (delivered_for o) -> ~ in_face s i /\ (i < su_next s)%nat).
Proof.
  induction l as [|e l IH] using rev_ind; intros s o F H.
  - injection H as <- <-. split; [constructor|intros i []].
  - rewrite run_snoc in H. destruct (su_run conv dconv prefix l su_new) as [s1 o1] eqn:E1. destruct (step e s1) as [s2 o2] eqn:E2. injection H as <- <-.
    apply Forall_app in F as [F1 F2]. inversion F2 as [|? ? F3 _]; subst. destruct (IH _ _ F1 eq_refl) as [A B].
    pose proof (hist_run _ _ _ E1) as HR. destruct HR as [V Q T D X]. destruct (step_spec _ _ _ _ V E2) as ((V2 & CH & NX & Q2 & T2 & D2) & _ & Z). specialize (Z F3).
    unfold delivered_for in *. rewrite flat_map_app. fold (delivered_for o1) in *. fold (delivered_for o2) in *.
    assert (OLD : forall i, (i < su_next s1)%nat -> in_face s2 i -> in_face s1 i).
    { intros i L [(k & I)|I]; unfold in_face.
      - destruct (Q2 _ _ I) as [I'|I']; eauto. specialize (D2 _ _ I'). lia.
      - apply in_map_iff in I as (x & <- & I). destruct (T2 _ I) as [I'|(y & I' & <- & _)]; eauto. right. apply in_map. exact I'. }
    destruct (chunk_delivered _ _ _ CH) as [E|(x & E & Ix)].
    + rewrite E, app_nil_r. split; auto. intros i I. destruct (B i I) as [B1 B2]. split; [|lia]. intro W. apply B1. auto.
    + assert (IX : in_face s1 (pe_id x)) by (right; apply in_map; exact Ix).
      assert (LX : (pe_id x < su_next s1)%nat). { apply (v_ids _ V). auto. }
      split.
      * rewrite E. apply NoDup_Add with (a := pe_id x) (l := delivered_for o1); [|split; auto].
        { rewrite <- (app_nil_r (delivered_for o1)) at 1. apply Add_app. } intro I. destruct (B _ I) as [B1 _]. auto.
      * intros i I. rewrite E in I. apply in_app_iff in I as [I|[<-|[]]].
        -- destruct (B i I) as [B1 B2]. split; [|lia]. intro W. apply B1. auto.
        -- split; [|lia]. assert (DI : In (pe_id x) (delivered_for o2)) by (rewrite E; left; reflexivity). apply delivered_in in DI as (n & DI).
           intros [(k & W)|W]; [|exact (Z _ _ DI W)].
           destruct (Q2 _ _ W) as [W'|W']; [|specialize (D2 _ _ W'); lia].
           pose proof (v_nodup _ V) as ND. clear - ND Ix W'. assert (I1 : In (pe_id x) (qids (su_queue s1))) by (apply qids_in; eauto). apply in_split in I1 as (p & q & E). rewrite E in ND.
           rewrite <- app_assoc in ND. cbn in ND. apply NoDup_remove_2 in ND. apply ND. apply in_app_iff. right. apply in_app_iff. right. apply in_map. exact Ix.
Qed.

Lemma run_good : forall l s o, Forall quiet_timeout l -> ~ In OUb o -> su_run conv dconv prefix l su_new = (s, o) -> good s.
Proof.
  induction l as [|e l IH] using rev_ind; intros s o F U H.
  - injection H as <- <-. intros [_ X]. discriminate.
  - rewrite run_snoc in H. destruct (su_run conv dconv prefix l su_new) as [s1 o1] eqn:E1. destruct (step e s1) as [s2 o2] eqn:E2. injection H as <- <-.
    apply Forall_app in F as [F1 F2]. inversion F2 as [|? ? F3 _]; subst. rewrite in_app_iff in U.
    pose proof (hist_run _ _ _ E1) as HR. destruct (step_spec _ _ _ _ (h_inv _ _ HR) E2) as (_ & G & _). apply G; [apply (IH s1 o1); auto|intro; apply U; auto|exact F3].
Qed.

Lemma run_pending : forall l s o, su_run conv dconv prefix l su_new = (s, o) -> su_queue s = [] ->
  (List.length (su_table s) <= 1)%nat /\ (su_running s = false \/ su_alive s = false -> su_table s = []).
Proof.
  intros l s o H Q. pose proof (hist_run _ _ _ H) as HR. destruct (h_inv _ _ HR) as [A B C D E F G]. unfold in_face in A. rewrite Q in A, E. cbn in E.
  assert (K : forall x, In x (su_table s) -> su_handle s = Some (pe_id x)). { intros x I. destruct (A (pe_id x)) as [Z|[]]; auto. right. apply in_map. exact I. }
  split.
  - destruct (su_table s) as [|x [|y t]]; cbn; try lia. exfalso. cbn in E. apply NoDup_cons_iff in E as [E _]. apply E. left.
    assert (X : Some (pe_id y) = Some (pe_id x)); [|congruence]. rewrite <- (K y) by (right; left; reflexivity). apply K. left. reflexivity.
  - intro R. destruct (su_table s) as [|x t]; auto. specialize (K x (or_introl eq_refl)). destruct R as [R|R]; [rewrite (F R) in K|rewrite (proj1 (G R)) in K]; discriminate.
Qed.

Lemma run_alive : forall l s o, Forall quiet_timeout l -> ~ In OUb o -> su_run conv dconv prefix l su_new = (s, o) -> su_queue s = [] -> su_alive s = true -> su_running s = true ->
  su_timer s = true \/ exists i k, su_table s = [mkPent i k true].
Proof.
  intros l s o F U H Q A R. destruct (run_good _ _ _ F U H (conj A R)) as [T|(h & k & _ & [I|I])]; auto; [rewrite Q in I; destruct I|]. right.
  destruct (run_pending _ _ _ H Q) as [L _]. destruct (su_table s) as [|x [|y t]]; cbn in L, I; [destruct I| |lia]. destruct I as [->|[]]. eauto.
Qed.

Lemma stopped_silent : forall e s s' c, su_running s = false -> su_alive s = true -> e <> EvAct ActStart -> step e s = (s', c) -> c = [] /\ su_running s' = false.
Proof.
  intros e s s' c R L N H.
  assert (SS : shouldStop s = (s, true)) by (unfold shouldStop; rewrite R; reflexivity).
  assert (AN : forall id fits kept f, (forall k, f k s = (s, [], false)) -> su_answer id s fits kept f = (s', c) -> c = [] /\ su_running s' = false).
  { intros id fits kept f F X. unfold su_answer in X. destruct (lookup id (su_table s)) as [x|]; [|injection X as <- <-; auto]. destruct (fits x); [|injection X as <- <-; auto].
    rewrite L, F in X. injection X as <- <-. auto. }
  destruct e as [a| | |id d ok acts t|id r acts t|id acts t|]; cbn [su_step] in H.
  - rewrite L in H. destruct a; cbn in H; [congruence| |]; injection H as <- <-; split; auto. unfold su_stop. rewrite R. exact R.
  - rewrite L in H. injection H as <- <-. auto.
  - destruct (su_queue s) as [|[i k|i] q]; injection H as <- <-; auto.
  - eapply AN; [|exact H]. intro k. unfold afterReceiveData. rewrite SS. reflexivity.
  - eapply AN; [|exact H]. intro k. unfold afterReceiveNack. rewrite SS. reflexivity.
  - eapply AN; [|exact H]. intro k. unfold afterTimeout. rewrite SS. reflexivity.
  - destruct (su_timer s); [|injection H as <- <-; auto]. unfold sendInitial, shouldStop in H. cbn in H. rewrite R in H. cbn in H. injection H as <- <-. auto.
Qed.
End Steps.

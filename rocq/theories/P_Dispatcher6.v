(* Proofs about the dispatcher, part 6: lemmas used by the theorems. *)
From Coq Require Import ZArith Lia ZifyBool ZifyNat ZifyN.
From Verif Require Import Base BaseLemmas M_Tlv M_Name S_Name P_Name P_NameUri M_Ims S_Ims P_Ims P_ImsI P_ImsT T_Ims M_StatusDataset M_Dispatcher S_Dispatcher P_Dispatcher P_Dispatcher2 P_Dispatcher3 P_Dispatcher4 P_Dispatcher5.
Open Scope N_scope.

Section D.
Variable conv dconv : convention.

Lemma reaches_inv : forall L evs s h, reaches conv dconv L evs s h -> DInv L h s /\ 16 <= L /\ nlen h < 2 ^ 59.
Proof.
  intros L evs s h (A & B & C). splits; auto.
  - exact (run_DInv _ _ _ _ [] _ _ _ (DInv_init L) C).
  - assert (X := run_length _ _ _ _ _ _ C). lia.
Qed.
Lemma reaches_split : forall L evs s h h1 e o x h2, reaches conv dconv L evs s h -> h = h1 ++ (e, o, x) :: h2 ->
  exists evs1 s1 s2, reaches conv dconv L evs1 s1 h1 /\ d_step conv dconv e s1 = (s2, o, x).
Proof.
  intros L evs s h h1 e o x h2 (A & B & C) E. destruct (run_splits _ _ _ _ _ _ _ _ _ _ _ C E) as (evs1 & evs2 & s1 & s2 & -> & R & S1 & _).
  exists evs1, s1, s2. split; auto. unfold reaches. splits; auto. rewrite nlen_app in B. lia.
Qed.
Lemma tops_apart : forall L h s t t', DInv L h s -> In t (tops_of h) -> In t' (tops_of h) -> comparable t t' -> t = t'.
Proof.
  intros L h s t t' I A B C. rewrite <- (di_tops _ _ _ I) in A, B. apply in_map_iff in A as (x & <- & A). apply in_map_iff in B as (y & <- & B).
  f_equal. exact (apart_eq _ _ _ _ _ (fi_tops _ (di_f _ _ _ I)) A B C).
Qed.
Lemma handlers_apart : forall L h s x y, DInv L h s -> In x (handlers_of h) -> In y (handlers_of h) -> comparable (fst x) (fst y) -> x = y.
Proof. intros L h s x y I A B C. rewrite <- (di_handlers _ _ _ I) in A, B. exact (apart_eq _ _ _ _ _ (fi_handlers _ (di_f _ _ _ I)) A B C). Qed.
Lemma unique_force : forall L h s q t r k t' r' k', DInv L h s -> in_force h t r k -> under t r q -> in_force h t' r' k' -> under t' r' q -> t' = t /\ r' = r /\ k' = k.
Proof.
  intros L h s q t r k t' r' k' I (A & B) U (A' & B') U'. assert (C := prefixes_comparable _ _ _ U' U).
  assert (t' = t) by (apply (tops_apart _ _ _ _ _ I A' A); exact (comparable_tops _ _ _ _ C)). subst t'.
  assert (X := handlers_apart _ _ _ _ _ I B' B (comparable_rels _ _ _ C)). injection X as -> ->. auto.
Qed.
Lemma match_under : forall q f, matching q f = true <-> under (fr_top f) (fr_rel f) q.
Proof. intros q f. unfold matching, under. apply prefixb_iff. Qed.

Lemma settled_table : forall L h s, DInv L h s -> d_posted s = [] -> forall t r k, in_force h t r k <-> exists i, In (mkF i t r k) (d_table s).
Proof.
  intros L h s I P t r k. assert (F := di_f _ _ _ I). unfold in_force. rewrite <- (di_tops _ _ _ I), <- (di_handlers _ _ _ I). split.
  - intros (A & B). apply in_map_iff in A as ([t0 is] & E & A). cbn in E. subst t0. destruct (fi_complete _ F _ _ _ _ A B) as (i & X & _). rewrite P in X. exists i. exact X.
  - intros (i & X). assert (Y := fi_settled _ F (mkF i t r k)). rewrite P in Y. destruct (Y X) as (is & A & _ & B). cbn in A, B. split; auto. apply in_map_iff. exists (t, is). auto.
Qed.

(* a step that posts *)
Lemma post_step : forall L evs s h r dg s' o x, reaches conv dconv L evs s h -> no_reset h -> d_step conv dconv (DPost r (Some dg)) s = (s', o, x) ->
  match posted_to h (DPost r (Some dg)) with
  | None => s' = s /\ o = [] /\ x = None
  | Some n => exists c, fromKind conv KSequenceNumber (posts h n) = Ok c /\ o = [OKept (mkPkt (n ++ [ckey c]) dg); OSent (mkPkt (n ++ [ckey c]) dg) BNotification] /\ x = None
  end.
Proof.
  intros L evs s h r dg s' o x R NR H. destruct (reaches_inv _ _ _ _ R) as (I & LB & NB). destruct R as (_ & _ & R).
  assert (ST := run_streams conv dconv evs L [] (d_init L) s h (DInv_init L) (fun n => eq_refl) R NR). cbn [app] in ST.
  cbn [d_step] in H. unfold d_post in H. rewrite (di_handlers _ _ _ I) in H. cbn [posted_to]. assert (T := di_tops _ _ _ I).
  destruct (existsb _ _); cbn [negb] in H; [|injection H as <- <- <-; destruct (tops_of h) as [|? [|]]; auto].
  destruct (d_tops s) as [|[t is] [|t2 l]] eqn:ET; cbn in T; rewrite <- T; try (injection H as <- <- <-; auto; fail).
  rewrite ST in H. assert (PB := posts_bound h (t ++ r)). rewrite N.mod_small in H by (unfold two64; lia). destruct (fromKind_ok conv KSequenceNumber (posts h (t ++ r))) as [c C]; [unfold two64; lia|].
  rewrite C in H. exists c. split; auto. unfold d_send in H. cbn [d_ims d_setStream setStreams] in H.
  destruct (ims_usable _ _ _ I LB) as (ops & ho & U & RI & _ & _); [lia|]. destruct (reached_Inv _ _ _ _ _ _ U RI) as (IM & _). destruct U as (_ & _ & UN).
  destruct (insert_spec _ _ _ (mkPkt ((t ++ r) ++ [ckey c]) dg) true IM UN) as (m & io & EI & _). rewrite EI in H. injection H as _ <- <-. auto.
Qed.
Lemma post_none : forall L h r sg s s' o x, DInv L h s -> d_step conv dconv (DPost r sg) s = (s', o, x) -> posted_to h (DPost r sg) = None -> s' = s /\ o = [] /\ x = None.
Proof.
  intros L h r sg s s' o x I H P. cbn [d_step] in H. unfold d_post in H. rewrite (di_handlers _ _ _ I) in H. cbn [posted_to] in P. assert (T := di_tops _ _ _ I).
  destruct (existsb _ _); cbn [negb] in H; [|injection H as <- <- <-; auto].
  destruct (d_tops s) as [|[t is] [|t2 l]] eqn:ET; cbn in T; rewrite <- T in P; try discriminate; injection H as <- <- <-; auto.
Qed.
Lemma posts_from_app : forall a h b n, posts_from h (a ++ b) n = posts_from h a n + posts_from (h ++ a) b n.
Proof.
  induction a as [|e a IH]; intros h b n; cbn; [now rewrite app_nil_r|]. rewrite IH, <- app_assoc. cbn. lia.
Qed.
Lemma posts_app : forall a b n, posts a n <= posts (a ++ b) n.
Proof. intros a b n. unfold posts. rewrite posts_from_app. cbn. lia. Qed.
(* a notification in a history *)
Lemma notified : forall L evs s h h1 e o x h2 p, reaches conv dconv L evs s h -> no_reset h -> h = h1 ++ (e, o, x) :: h2 -> In (OSent p BNotification) o ->
  exists n c, posted_to h1 e = Some n /\ fromKind conv KSequenceNumber (posts h1 n) = Ok c /\ pk_name p = n ++ [ckey c] /\ posts h1 n < 2 ^ 59.
Proof.
  intros L evs s h h1 e o x h2 p R NR E P. destruct (reaches_split _ _ _ _ _ _ _ _ _ R E) as (evs1 & s1 & s2 & R1 & ST).
  destruct (reaches_inv _ _ _ _ R1) as (I1 & LB & NB). assert (NR1 : no_reset h1) by (rewrite E in NR; exact (no_reset_prefix _ _ NR)).
  assert (J := step_justified _ _ _ _ _ _ _ _ _ _ I1 (stored_kept _ _ _ I1 LB ltac:(lia)) ST P). destruct J as (r & dg & -> & _ & _).
  assert (X := post_step _ _ _ _ _ _ _ _ _ R1 NR1 ST). destruct (posted_to h1 (DPost r (Some dg))) as [n|] eqn:PT; [|destruct X as (_ & -> & _); destruct P].
  destruct X as (c & C & -> & _). exists n, c. assert (B := posts_bound h1 n). splits; auto; [|lia]. destruct P as [P|[P|[]]]; [discriminate|]. injection P as <-. reflexivity.
Qed.
Lemma seq_key_inj : forall a b ca cb, a < 2 ^ 64 -> b < 2 ^ 64 -> fromKind conv KSequenceNumber a = Ok ca -> fromKind conv KSequenceNumber b = Ok cb -> ckey ca = ckey cb -> a = b.
Proof.
  intros a b ca cb A B CA CB K. assert (CD : can_decode EITHER conv = true) by (destruct conv; reflexivity).
  destruct (numeric_round_trip _ _ _ _ _ A CD CA) as [_ TA]. destruct (numeric_round_trip _ _ _ _ _ B CD CB) as [_ TB].
  assert (X : toKind EITHER KSequenceNumber ca = toKind EITHER KSequenceNumber cb).
  { destruct ca as [t w v], cb as [t' w' v']. unfold ckey in K. cbn in K. injection K as -> ->. reflexivity. }
  rewrite TA, TB in X. injection X as ->. reflexivity.
Qed.
End D.

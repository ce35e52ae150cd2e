(* Invariants of a Face whose exceptions leave through processEvents. *)
From Coq Require Import Lia ZifyBool ZifyNat ZifyN Sorting.Sorted Permutation.
From Verif Require Import Base BaseLemmas S_Name M_Ims S_Ims P_Ims M_Face S_Face P_Face.

(* ---------- Nack bookkeeping ---------- *)
Lemma nacks_miss : forall q ev b l, nacks q b l -> (forall x, In x ev -> forall r, x <> EvNack q r) -> nacks q (b ++ ev) l.
Proof.
  intros q ev. induction ev as [|x ev IH] using rev_ind; intros b l H N; [rewrite app_nil_r; exact H|].
  rewrite app_assoc. apply nk_miss; [apply IH; [exact H|]|].
  - intros y Hy. apply N. apply in_or_app; auto.
  - apply N. apply in_or_app; right; left; reflexivity.
Qed.
Lemma dests_app : forall id a b, dests id (a ++ b) = (dests id a + dests id b)%nat.
Proof. intros. unfold dests. rewrite filter_app, app_length. reflexivity. Qed.
Lemma dests_none : forall id ev, (forall x, In x ev -> is_dest id x = false) -> dests id ev = 0%nat.
Proof.
  intros id ev H. unfold dests. induction ev as [|x ev IH]; [reflexivity|]. cbn. rewrite (H x) by (left; reflexivity). apply IH. intros; apply H; right; auto.
Qed.

Definition K (e : pend) (h : list fev) : Prop :=
  exists a b l, h = a ++ EvStart (f_id e) (f_origin e) (f_q e) :: b /\ nacks (f_q e) b l /\
    f_nn e = (Z.of_nat (dests (f_id e) b) - Z.of_nat (length l))%Z /\
    match f_least e with None => l = [] | Some y => least_severe y l end /\ (f_origin e = APP -> 0 < f_nn e)%Z.
Definition idle (e : pend) (ev : list fev) : Prop :=
  forall x, In x ev -> is_dest (f_id e) x = false /\ forall r, x <> EvNack (f_q e) r.
Lemma K_idle : forall e h ev, K e h -> idle e ev -> K e (h ++ ev).
Proof.
  intros e h ev (a & b & l & -> & A & B & C & P) I. exists a, (b ++ ev), l. splits.
  - rewrite <- app_assoc. reflexivity.
  - apply nacks_miss; [exact A|]. intros x Hx. apply I; exact Hx.
  - rewrite dests_app, (dests_none _ ev), Nat.add_0_r; [exact B|]. intros x Hx. apply I; exact Hx.
  - exact C.
  - exact P.
Qed.
Lemma isLessSevere_iff : forall x y, isLessSevere x y = true <-> less_severe x y.
Proof. intros x y. unfold isLessSevere, less_severe. destruct (x =? 0) eqn:E1; destruct (y =? 0) eqn:E2; lia. Qed.
Lemma least_snoc : forall y l r, least_severe y l -> least_severe (if isLessSevere r y then r else y) (l ++ [r]).
Proof.
  intros y l r [A B]. destruct (isLessSevere r y) eqn:E; split.
  - apply in_or_app; right; left; reflexivity.
  - intros z Hz X. apply isLessSevere_iff in E. apply in_app_or in Hz. destruct Hz as [Hz|[<-|[]]]; [|unfold less_severe in X; lia].
    apply (B z Hz). unfold less_severe in *. lia.
  - apply in_or_app; left; exact A.
  - intros z Hz X. apply in_app_or in Hz. destruct Hz as [Hz|[<-|[]]]; [exact (B z Hz X)|]. apply isLessSevere_iff in X. congruence.
Qed.
Lemma K_nack : forall e h r e' o ev, K e h -> recordNack r e = Ok (e', o) -> idle e ev ->
  exists a b l least, h ++ EvNack (f_q e) r :: ev = a ++ EvStart (f_id e) (f_origin e) (f_q e) :: b ++ EvNack (f_q e) r :: ev /\ h = a ++ EvStart (f_id e) (f_origin e) (f_q e) :: b /\
    nacks (f_q e) (b ++ EvNack (f_q e) r :: ev) (l ++ [r]) /\ dests (f_id e) (b ++ EvNack (f_q e) r :: ev) = dests (f_id e) b /\
    f_nn e = (Z.of_nat (dests (f_id e) b) - Z.of_nat (length l))%Z /\
    f_nn e' = (Z.of_nat (dests (f_id e) b) - Z.of_nat (length (l ++ [r])))%Z /\ f_least e' = Some least /\ least_severe least (l ++ [r]) /\
    nacks (f_q e) b l /\ o = if (0 <? f_nn e')%Z then None else Some least.
Proof.
  intros e h r e' o ev (a & b & l & -> & A & B & C & P) R I.
  unfold recordNack in R. destruct (_ <? 0)%Z eqn:E; [discriminate|]. injection R as <- <-. cbn [f_nn f_least].
  exists a, b, l, (match f_least e with Some y => if isLessSevere r y then r else y | None => r end).
  splits; auto.
  - rewrite <- app_assoc. reflexivity.
  - change (EvNack (f_q e) r :: ev) with ([EvNack (f_q e) r] ++ ev). rewrite app_assoc. apply nacks_miss; [constructor; exact A|]. intros x Hx. apply I; exact Hx.
  - rewrite dests_app. change (EvNack (f_q e) r :: ev) with ([EvNack (f_q e) r] ++ ev). rewrite dests_app.
    rewrite (dests_none _ ev) by (intros x Hx; apply I; exact Hx). cbn. lia.
  - rewrite app_length. cbn [length]. lia.
  - destruct (f_least e) as [y|]; [apply least_snoc; exact C|]. subst l. cbn. split; [left; reflexivity|]. intros z [<-|[]]. unfold less_severe. lia.
Qed.

(* ---------- the state ---------- *)
Definition exprs (q : list ftask) : list N := flat_map (fun t => match t with TExpress id _ _ => [id] | _ => [] end) q.
Definition fsets (q : list ftask) : list N := flat_map (fun t => match t with TSetFilter id _ => [id] | _ => [] end) q.
Definition started (h : list fev) (id : N) : Prop := exists o q, In (EvStart id o q) h.
Definition starts (h : list fev) : list N := flat_map (fun e => match e with EvStart id _ _ => [id] | _ => [] end) h.
Lemma starts_in : forall h id, In id (starts h) <-> started h id.
Proof.
  intros h id. unfold starts, started. rewrite in_flat_map. split.
  - intros (e & A & B). destruct e; cbn in B; try contradiction. destruct B as [<-|[]]. eauto.
  - intros (o & q & A). eexists; split; [exact A | left; reflexivity].
Qed.
Lemma starts_app : forall a b, starts (a ++ b) = starts a ++ starts b. Proof. intros. apply flat_map_app. Qed.
Lemma starts_none : forall h, (forall id, ~ started h id) -> NoDup (starts h).
Proof. intros h H. destruct (starts h) as [|i l] eqn:E; [constructor|]. exfalso. apply (H i). apply starts_in. rewrite E. left; reflexivity. Qed.
Lemma NoDup_app_intro : forall A (a b : list A), NoDup a -> NoDup b -> (forall x, In x a -> In x b -> False) -> NoDup (a ++ b).
Proof.
  induction a as [|x a IH]; intros b H1 H2 H3; cbn; [exact H2|]. inversion H1; subst. constructor.
  - intro X. apply in_app_or in X. destruct X as [X|X]; [contradiction | exact (H3 x (or_introl eq_refl) X)].
  - apply IH; auto. intros y Y1 Y2. exact (H3 y (or_intror Y1) Y2).
Qed.
Record RI (s : face) (h : list fev) : Prop := mkRI {
  r_sorted : psorted (fc_pit s);
  r_ids : forall e, In e (fc_pit s) -> f_id e <= fc_last s;
  r_queue : forall id, In id (exprs (fc_queue s)) -> id <= fc_last s /\ ~ In id (ids (fc_pit s)) /\ ~ started h id;
  r_qnd : NoDup (exprs (fc_queue s));
  r_rem : forall q1 id q2, fc_queue s = q1 ++ TRemove id :: q2 -> id <= fc_last s /\ ~ In id (exprs q2);
  r_start : forall id, started h id -> id <= fc_last s;
  r_filt : NoDup (map fst (fc_filters s) ++ fsets (fc_queue s)) /\ forall i, In i (map fst (fc_filters s) ++ fsets (fc_queue s)) -> i <= fc_flast s;
  r_K : forall e, In e (fc_pit s) -> K e h;
  r_snd : NoDup (starts h) }.
Definition gone (s : face) (id : N) : Prop := id <= fc_last s /\ ~ In id (ids (fc_pit s)) /\ ~ In id (exprs (fc_queue s)).

(* what a handler does *)
Record HF (G : N -> Prop) (s : face) (h : list fev) (s1 : face) (ev : list fev) (t : bool) : Prop := mkHF {
  h_queue : fc_queue s1 = fc_queue s;
  h_filters : fc_filters s1 = fc_filters s /\ fc_flast s1 = fc_flast s;
  h_last : fc_last s <= fc_last s1;
  h_sorted : psorted (fc_pit s1);
  h_starts : forall id, started ev id -> ~ started h id /\ ~ In id (exprs (fc_queue s)) /\ id <= fc_last s1 /\ ~ G id;
  h_ids : forall e, In e (fc_pit s1) -> In (f_id e) (ids (fc_pit s)) \/ started ev (f_id e);
  h_nd : NoDup (cbs ev);
  h_cb : forall i, In i (cbs ev) -> (exists e, In e (fc_pit s) /\ f_id e = i /\ f_origin e = APP) /\ (t = false -> ~ In i (ids (fc_pit s1)));
  h_norem : forall x, In x ev -> x <> EvRemoveAll /\ forall i, x <> EvRemove i;
  h_K : t = false -> forall e, In e (fc_pit s1) -> K e (h ++ ev);
  h_snd : NoDup (starts ev) }.

Lemma started_app : forall a b id, started (a ++ b) id <-> started a id \/ started b id.
Proof.
  intros a b id; unfold started; split.
  - intros (o & q & H). apply in_app_or in H. destruct H; eauto.
  - intros [(o & q & H)|(o & q & H)]; exists o, q; apply in_or_app; auto.
Qed.
Lemma started_none : forall ev id, (forall x, In x ev -> forall i o q, x <> EvStart i o q) -> ~ started ev id.
Proof. intros ev id H (o & q & X). exact (H _ X _ _ _ eq_refl). Qed.

(* consequences of a step *)
Record SF (G : N -> Prop) (s : face) (s' : face) (ev : list fev) : Prop := mkSF {
  s_cb : forall i, In i (cbs ev) -> gone s' i /\ exists e, In e (fc_pit s) /\ f_id e = i /\ f_origin e = APP;
  s_nd : NoDup (cbs ev);
  s_rem : forall a i b, ev = a ++ EvRemove i :: b -> b = [] /\ gone s' i;
  s_all : forall a b, ev = a ++ EvRemoveAll :: b -> b = [] /\ fc_pit s' = [];
  s_gone : forall i, G i -> gone s' i /\ ~ In i (cbs ev) }.

Lemma RI_bounds : forall s h, RI s h -> forall e, In e (fc_pit s) -> ~ In (f_id e) (exprs (fc_queue s)).
Proof. intros s h R e He X. apply (r_queue _ _ R) in X. destruct X as (_ & X & _). apply X. apply in_map; exact He. Qed.

Lemma finish_ok : forall (G : N -> Prop) s h s1 ev t, RI s h -> (forall i, G i -> gone s i) -> HF G s h s1 ev t ->
  RI (fst (fc_finish true (s1, ev, t))) (h ++ snd (fc_finish true (s1, ev, t))) /\
  SF G s (fst (fc_finish true (s1, ev, t))) (snd (fc_finish true (s1, ev, t))).
Proof.
  intros G s h s1 ev t R GG [H1 [H2 H2'] H3 H4 H5 H6 H7 H8 H9 H10 H11]. unfold fc_finish. rewrite andb_true_r.
  assert (st0 : forall i, started [EvRemoveAll] i -> False) by (intros i (o & q & [X|[]]); discriminate).
  assert (ex : forall p, forall id, In id (exprs (fc_queue (setPit p s1))) -> id <= fc_last s1 /\ ~ In id (ids (fc_pit s)) /\ ~ started (h ++ ev) id).
  { intros p id X. cbn in X. rewrite H1 in X. destruct (r_queue _ _ R _ X) as (A & B & C). splits; [lia | exact B|].
    rewrite started_app. intros [Y|Y]; [exact (C Y) | destruct (H5 _ Y) as (_ & Y' & _); exact (Y' X)]. }
  assert (idb : forall e, In e (fc_pit s1) -> f_id e <= fc_last s1).
  { intros e He. destruct (H6 _ He) as [X|X]; [|apply H5 in X; tauto]. apply in_map_iff in X. destruct X as (y & E & Y). rewrite <- E. pose proof (r_ids _ _ R _ Y). lia. }
  assert (notin : forall e, In e (fc_pit s1) -> ~ In (f_id e) (exprs (fc_queue s))).
  { intros e He X. destruct (H6 _ He) as [Y|Y]; [|apply H5 in Y; tauto]. apply (r_queue _ _ R) in X. tauto. }
  assert (SN : NoDup (starts (h ++ ev))).
  { rewrite starts_app. apply NoDup_app_intro; [exact (r_snd _ _ R) | exact H11|]. intros x X Y. apply starts_in in X, Y. apply H5 in Y. tauto. }
  destruct t; cbn [fst snd].
  - split.
    + constructor; cbn [setPit fc_pit fc_last fc_queue fc_filters fc_flast]; try rewrite H1; try rewrite H2; try rewrite H2'.
      * constructor.
      * intros e [].
      * intros id X. destruct (ex [] id) as (A & B & C); [cbn; rewrite H1; exact X|]. splits; [exact A | intros [] |].
        rewrite app_assoc, started_app. intros [Y|Y]; [exact (C Y) | exact (st0 _ Y)].
      * exact (r_qnd _ _ R).
      * intros q1 id q2 E. destruct (r_rem _ _ R _ _ _ E). split; [lia | assumption].
      * intros id. rewrite app_assoc, started_app, started_app. intros [[Y|Y]|Y]; [apply (r_start _ _ R) in Y; lia | apply H5 in Y; tauto | destruct (st0 _ Y)].
      * exact (r_filt _ _ R).
      * intros e [].
      * rewrite app_assoc, starts_app. cbn. rewrite app_nil_r. exact SN.
    + constructor; cbn [setPit fc_pit fc_last fc_queue].
      * intros i. rewrite cbs_app. cbn. rewrite app_nil_r. intro X. destruct (H8 _ X) as [(e & A & <- & B) _]. split; [|exists e; auto].
        unfold gone. cbn. rewrite H1. splits; [pose proof (r_ids _ _ R _ A); lia | intros [] | exact (RI_bounds _ _ R _ A)].
      * rewrite cbs_app. cbn. rewrite app_nil_r. exact H7.
      * intros a i b E. exfalso. assert (X : In (EvRemove i) (ev ++ [EvRemoveAll])) by (rewrite E; apply in_or_app; right; left; reflexivity).
        apply in_app_or in X. destruct X as [X|[X|[]]]; [|discriminate]. destruct (H9 _ X) as [_ Y]. exact (Y i eq_refl).
      * intros a b E. split; [|reflexivity]. destruct b as [|x b _] using rev_ind; [reflexivity|].
        rewrite app_comm_cons, app_assoc in E. apply app_inj_tail in E. destruct E as [E _]. exfalso.
        destruct (H9 EvRemoveAll) as [Y _]; [rewrite E; apply in_or_app; right; left; reflexivity | apply Y; reflexivity].
      * intros i Gi. destruct (GG _ Gi) as (A & B & C). unfold gone. cbn. rewrite H1. splits; [lia | intros [] | exact C|].
        rewrite cbs_app. cbn. rewrite app_nil_r. intro X. destruct (H8 _ X) as [(e & D & <- & _) _]. apply B. apply in_map; exact D.
  - split.
    + constructor; try rewrite H1; try rewrite H2; try rewrite H2'.
      * exact H4.
      * exact idb.
      * intros id X. destruct (ex [] id) as (A & B & C); [cbn; rewrite H1; exact X|]. splits; [exact A | | exact C].
        intro Y. apply in_map_iff in Y. destruct Y as (e & <- & Y). exact (notin _ Y X).
      * exact (r_qnd _ _ R).
      * intros q1 id q2 E. destruct (r_rem _ _ R _ _ _ E). split; [lia | assumption].
      * intros id. rewrite started_app. intros [Y|Y]; [apply (r_start _ _ R) in Y; lia | apply H5 in Y; tauto].
      * exact (r_filt _ _ R).
      * exact (H10 eq_refl).
      * exact SN.
    + constructor.
      * intros i X. destruct (H8 _ X) as [(e & A & <- & B) Y]. split; [|exists e; auto].
        unfold gone. rewrite H1. splits; [pose proof (r_ids _ _ R _ A); lia | exact (Y eq_refl) | exact (RI_bounds _ _ R _ A)].
      * exact H7.
      * intros a i b E. exfalso. destruct (H9 (EvRemove i)) as [_ Y]; [rewrite E; apply in_or_app; right; left; reflexivity | exact (Y i eq_refl)].
      * intros a b E. exfalso. destruct (H9 EvRemoveAll) as [Y _]; [rewrite E; apply in_or_app; right; left; reflexivity | apply Y; reflexivity].
      * intros i Gi. destruct (GG _ Gi) as (A & B & C). split.
        -- unfold gone. rewrite H1. splits; [lia | | exact C]. intro X. apply in_map_iff in X. destruct X as (e & <- & X).
           destruct (H6 _ X) as [Y|Y]; [exact (B Y) | apply H5 in Y; tauto].
        -- intro X. destruct (H8 _ X) as [(e & D & <- & _) _]. apply B. apply in_map; exact D.
Qed.

(* ---------- handlers ---------- *)
Lemma cbev_idle : forall e ev, (forall x, In x ev -> exists i d, x = EvCbData i d) \/ (forall x, In x ev -> exists i r, x = EvCbNack i r) -> idle e ev.
Proof.
  intros e ev [H|H] x Hx; destruct (H x Hx) as (i & d & ->); split; try reflexivity; discriminate.
Qed.
Lemma satisfy_evs : forall d k l x, In x (sa_ev (satisfy d k l)) -> exists i d', x = EvCbData i d'.
Proof.
  intros d k l x H. destruct (satisfy_events d l k) as (m & A & _). rewrite A in H.
  assert (D : In x (map (fun e => EvCbData (f_id e) d) (filter (appHit d) l))) by (rewrite <- (firstn_skipn m); apply in_or_app; auto).
  apply in_map_iff in D. destruct D as (e & <- & _). eauto.
Qed.
(* tail: events without callbacks or Interests, sent after the callbacks *)
Definition quiet (ev : list fev) : Prop := forall x, In x ev -> (exists d, x = EvSendData d) \/ (exists q r, x = EvSendNack q r).
Lemma quiet_cbs : forall ev, quiet ev -> cbs ev = [].
Proof.
  intros ev Q. induction ev as [|x ev IH]; [reflexivity|]. cbn. destruct (Q x (or_introl eq_refl)) as [(d & ->)|(q & r & ->)]; cbn; apply IH; intros y Hy; apply Q; right; auto.
Qed.
Lemma HF_data : forall G s h d k tail t, RI s h -> quiet tail ->
  (t = false -> sa_thr (satisfy d k (fc_pit s)) = false) ->
  HF G s h (setPit (sa_pit (satisfy d k (fc_pit s))) s) (EvData d :: sa_ev (satisfy d k (fc_pit s)) ++ tail) t.
Proof.
  intros G s h d k tail t R Q T. set (r := satisfy d k (fc_pit s)) in *.
  assert (ns : forall id, ~ started (EvData d :: sa_ev r ++ tail) id).
  { intro id. apply started_none. intros x [<-|X] i o q; [discriminate|]. apply in_app_or in X. destruct X as [X|X].
    - apply satisfy_evs in X. destruct X as (j & d' & ->). discriminate.
    - destruct (Q _ X) as [(d' & ->)|(q' & r' & ->)]; discriminate. }
  assert (cb : cbs (EvData d :: sa_ev r ++ tail) = cbs (sa_ev r)) by (cbn; rewrite cbs_app, (quiet_cbs _ Q), app_nil_r; reflexivity).
  destruct (satisfy_once d (fc_pit s) k (r_sorted _ _ R)) as [O1 O2]. fold r in O1, O2.
  constructor; cbn [setPit fc_pit fc_queue fc_filters fc_flast fc_last]; auto; try lia.
  - apply satisfy_sorted. exact (r_sorted _ _ R).
  - intros id X. destruct (ns id X).
  - intros e He. left. apply in_map. eapply satisfy_ids; exact He.
  - rewrite cb. exact O1.
  - rewrite cb. intros i X. split; [eapply satisfy_cbs; exact X | intro E; exact (O2 (T E) i X)].
  - intros x [<-|X]; [split; discriminate|]. apply in_app_or in X. destruct X as [X|X].
    + apply satisfy_evs in X. destruct X as (j & d' & ->). split; discriminate.
    + destruct (Q _ X) as [(d' & ->)|(q' & r' & ->)]; split; discriminate.
  - intros E e He. apply K_idle; [apply (r_K _ _ R); eapply satisfy_ids; exact He|].
    intros x [<-|X]; [split; [reflexivity | discriminate]|]. apply in_app_or in X. destruct X as [X|X].
    + apply satisfy_evs in X. destruct X as (j & d' & ->). split; [reflexivity | discriminate].
    + destruct (Q _ X) as [(d' & ->)|(q' & r' & ->)]; split; try reflexivity; discriminate.
  - apply starts_none. exact ns.
Qed.

Lemma HF_nack : forall G s h q r k x tail t, RI s h -> quiet tail -> nackPend q r k (fc_pit s) = Ok x -> (t = false -> na_thr x = false) ->
  HF G s h (setPit (na_pit x) s) (EvNack q r :: na_ev x ++ tail) t.
Proof.
  intros G s h q r k x tail t R Q NX T. destruct (nack_spec q r _ k x NX (r_sorted _ _ R)) as (A & B & C & D).
  assert (evs : forall y, In y (na_ev x) -> exists i r', y = EvCbNack i r') by (intros y Y; destruct (B _ Y) as (e & least & _ & -> & _); eauto).
  assert (ns : forall id, ~ started (EvNack q r :: na_ev x ++ tail) id).
  { intro id. apply started_none. intros y [<-|X] i o q'; [discriminate|]. apply in_app_or in X. destruct X as [X|X].
    - apply evs in X. destruct X as (j & d' & ->). discriminate.
    - destruct (Q _ X) as [(d' & ->)|(q'' & r' & ->)]; discriminate. }
  assert (cb : cbs (EvNack q r :: na_ev x ++ tail) = cbs (na_ev x)) by (cbn; rewrite cbs_app, (quiet_cbs _ Q), app_nil_r; reflexivity).
  assert (idl : forall e, idle e (na_ev x ++ tail)).
  { intros e y X. apply in_app_or in X. destruct X as [X|X].
    - apply evs in X. destruct X as (j & d' & ->). split; [reflexivity | discriminate].
    - destruct (Q _ X) as [(d' & ->)|(q' & r' & ->)]; split; try reflexivity; discriminate. }
  constructor; cbn [setPit fc_pit fc_queue fc_filters fc_flast fc_last]; auto; try lia.
  - intros id X. destruct (ns id X).
  - intros e He. left. destruct (nack_ids _ _ _ _ _ NX _ He) as (e0 & E & -> & _). apply in_map; exact E.
  - rewrite cb. exact C.
  - rewrite cb. intros i X. split.
    + apply cbs_in in X. destruct X as (y & X & Y). destruct (B _ X) as (e & least & E1 & -> & E2). apply answers_cbid in Y. injection Y as <-.
      exists e. splits; auto. apply E2.
    + intro E. destruct (D (T E)) as (_ & _ & D3). exact (D3 i X).
  - intros y [<-|X]; [split; discriminate|]. apply in_app_or in X. destruct X as [X|X].
    + apply evs in X. destruct X as (j & d' & ->). split; discriminate.
    + destruct (Q _ X) as [(d' & ->)|(q' & r' & ->)]; split; discriminate.
  - intros E e He. destruct (D (T E)) as (D1 & _ & _). apply D1 in He. destruct He as (e0 & E1 & [[E2 ->]|[E2 E3]]).
    + apply K_idle; [exact (r_K _ _ R _ E1)|]. intros y [<-|Y]; [|exact (idl _ y Y)]. split; [reflexivity|]. intros r' X. apply E2. injection X as <- _. reflexivity.
    + destruct (K_nack e0 h r e None (na_ev x ++ tail) (r_K _ _ R _ E1) E3 (idl e0)) as (a & b & l & least & F1 & F2 & F3 & F4 & F5 & F6 & F7 & F8 & _ & F9).
      pose proof (recordNack_id _ _ _ _ E3) as (I1 & I2 & I3). rewrite E2 in *.
      exists a, (b ++ EvNack q r :: na_ev x ++ tail), (l ++ [r]). rewrite I1, I2, I3. splits; auto.
      * rewrite F4. exact F6.
      * rewrite F7. exact F8.
      * intros _. destruct (0 <? f_nn e)%Z eqn:EP; [lia | discriminate].
  - apply starts_none. exact ns.
Qed.

(* a new entry, with the forwarder (snd) and the matching filters as destinations *)
Lemma HF_start : forall (G : N -> Prop) s h id o q (snd_ : bool) k p t last',
  RI s h -> fc_last s <= last' -> id <= last' -> ~ started h id -> ~ In id (exprs (fc_queue s)) -> ~ G id -> (o = APP -> snd_ = true) ->
  pit_put (mkPend id q o (if snd_ then 1 else 0) None true) (fc_pit s) = Ok p ->
  psorted p -> (forall x, In x p <-> x = mkPend id q o (if snd_ then 1 else 0) None true \/ In x (fc_pit s)) -> ~ In id (ids (fc_pit s)) ->
  HF G s h (mkFace last' (addCount id (fst (fst (dispatch id o (q_name q) k (fc_filters s)))) p) (fc_flast s) (fc_filters s) (fc_queue s))
    (EvStart id o q :: (if snd_ then [EvSendI id] else []) ++ snd (fst (dispatch id o (q_name q) k (fc_filters s)))) t.
Proof.
  intros G s h id o q snd_ k p t last' R L1 L2 NS NQ NG SA PP Ps Pin Nid.
  set (D := dispatch id o (q_name q) k (fc_filters s)).
  set (ev := EvStart id o q :: (if snd_ then [EvSendI id] else []) ++ snd (fst D)).
  assert (st : forall i, started ev i -> i = id).
  { intros i (o' & q' & [X|X]); [injection X; auto|]. apply in_app_or in X. destruct X as [X|X].
    - destruct snd_; [destruct X as [X|[]]; discriminate | destruct X].
    - apply dispatch_ev in X. destruct X as (fid & X). discriminate. }
  assert (cb : cbs ev = []) by (unfold ev; cbn; rewrite cbs_app, (dispatch_cbs id o (q_name q) (fc_filters s) k : cbs (snd (fst D)) = []); destruct snd_; reflexivity).
  assert (inA : forall y, In y (addCount id (fst (fst D)) p) ->
     y = mkPend id q o ((if snd_ then 1 else 0) + Z.of_N (fst (fst D))) None true \/ In y (fc_pit s)).
  { intros y Y. apply in_map_iff in Y. destruct Y as (x & <- & X). apply Pin in X. destruct X as [->|X].
    - cbn [f_id]. rewrite N.eqb_refl. left; reflexivity.
    - destruct (f_id x =? id) eqn:E; [|right; exact X]. exfalso. apply Nid. apply in_map_iff. exists x; split; [lia | exact X]. }
  constructor; cbn [fc_pit fc_queue fc_filters fc_flast fc_last]; auto.
  - unfold addCount. apply psorted_map; [|exact Ps]. intro e. destruct (_ =? _); reflexivity.
  - intros i X. apply st in X. subst i. auto.
  - intros e He. apply inA in He. destruct He as [->|He]; [right; exists o, q; left; reflexivity | left; apply in_map; exact He].
  - rewrite cb. constructor.
  - rewrite cb. intros i [].
  - intros x [<-|X]; [split; discriminate|]. apply in_app_or in X. destruct X as [X|X].
    + destruct snd_; [destruct X as [<-|[]]; split; discriminate | destruct X].
    + apply dispatch_ev in X. destruct X as (fid & ->). split; discriminate.
  - intros _ e He. apply inA in He. destruct He as [->|He].
    + exists h, ((if snd_ then [EvSendI id] else []) ++ snd (fst D)), []. cbn [f_id f_origin f_q f_nn f_least]. splits; auto.
      * change ((if snd_ then [EvSendI id] else []) ++ snd (fst D)) with ([] ++ ((if snd_ then [EvSendI id] else []) ++ snd (fst D))).
        apply nacks_miss; [constructor|]. intros x X r. apply in_app_or in X. destruct X as [X|X].
        -- destruct snd_; [destruct X as [<-|[]]; discriminate | destruct X].
        -- apply dispatch_ev in X. destruct X as (fid & ->). discriminate.
      * rewrite dests_app. unfold D. rewrite dispatch_dests. cbn [length].
        assert (X : dests id (if snd_ then [EvSendI id] else []) = if snd_ then 1%nat else 0%nat) by (destruct snd_; cbn; [rewrite N.eqb_refl|]; reflexivity).
        rewrite X. destruct snd_; lia.
      * intro X. rewrite (SA X). lia.
    + apply K_idle; [exact (r_K _ _ R _ He)|]. assert (N : f_id e <> id) by (intro X; apply Nid; rewrite <- X; apply in_map; exact He).
      intros x [<-|X]; [split; [reflexivity|discriminate]|]. apply in_app_or in X. destruct X as [X|X].
      * destruct snd_; [destruct X as [<-|[]]; cbn; split; [lia | discriminate] | destruct X].
      * apply dispatch_ev in X. destruct X as (fid & ->). cbn. split; [lia | discriminate].
  - unfold ev. change (NoDup (id :: starts ((if snd_ then [EvSendI id] else []) ++ snd (fst D)))).
    assert (Z : forall i, ~ started ((if snd_ then [EvSendI id] else []) ++ snd (fst D)) i).
    { intro i. apply started_none. intros x X i' o' q'. apply in_app_or in X. destruct X as [X|X].
      - destruct snd_; [destruct X as [<-|[]]; discriminate | destruct X].
      - apply dispatch_ev in X. destruct X as (fid & ->). discriminate. }
    constructor; [intro X; apply starts_in in X; exact (Z _ X) | apply starts_none; exact Z].
Qed.

(* ---------- one step ---------- *)
Lemma exprs_app : forall a b, exprs (a ++ b) = exprs a ++ exprs b. Proof. intros. apply flat_map_app. Qed.
Lemma fsets_app : forall a b, fsets (a ++ b) = fsets a ++ fsets b. Proof. intros. apply flat_map_app. Qed.
Definition popped (s : face) (rest : list ftask) : face := mkFace (fc_last s) (fc_pit s) (fc_flast s) (fc_filters s) rest.
Lemma NoDup_drop : forall A (a b c : list A), NoDup (a ++ b ++ c) -> NoDup (a ++ c).
Proof.
  intros A a b c H. induction b as [|x b IH]; [exact H|]. apply IH. cbn in H. apply NoDup_remove_1 in H. exact H.
Qed.
Lemma RI_pop : forall s h t rest, RI s h -> fc_queue s = t :: rest -> RI (popped s rest) h.
Proof.
  intros s h t rest R E. destruct R as [A B C D F G H I SN]. rewrite E in *. constructor; cbn [popped fc_pit fc_last fc_queue fc_filters fc_flast]; auto.
  - intros id X. apply C. cbn. apply in_or_app; right; exact X.
  - cbn in D. exact (NoDup_drop _ [] _ _ D).
  - intros q1 id q2 X. apply (F (t :: q1)). cbn. f_equal. exact X.
  - cbn in H. destruct H as [H1 H2]. split; [eapply NoDup_drop; exact H1|]. intros i X. apply H2. apply in_app_or in X. apply in_or_app. destruct X; [auto|]. right. apply in_or_app; auto.
Qed.
Lemma gone_pop : forall s t rest i, fc_queue s = t :: rest -> gone s i -> gone (popped s rest) i.
Proof. intros s t rest i E (A & B & C). unfold gone. cbn. splits; auto. intro X. apply C. rewrite E. cbn. apply in_or_app; right; exact X. Qed.

Lemma snoc_split : forall (A : Type) (q : list A) t a x b, q ++ [t] = a ++ x :: b -> (b = [] /\ x = t /\ a = q) \/ exists b', b = b' ++ [t] /\ q = a ++ x :: b'.
Proof.
  intros A q t a x b E. destruct b as [|y b _] using rev_ind.
  - left. apply app_inj_tail in E. destruct E; auto.
  - right. exists b. rewrite app_comm_cons, app_assoc in E. apply app_inj_tail in E. destruct E as [-> ->]. auto.
Qed.
(* calls of the API: a task is posted, with a new id when it needs one *)
Lemma RI_post : forall s h t last' flast', RI s h -> fc_last s <= last' -> fc_flast s <= flast' ->
  (forall id q b, t = TExpress id q b -> fc_last s < id <= last') ->
  (forall id, t = TRemove id -> id <= fc_last s) ->
  (forall id f, t = TSetFilter id f -> fc_flast s < id <= flast') ->
  RI (mkFace last' (fc_pit s) flast' (fc_filters s) (fc_queue s ++ [t])) h.
Proof.
  intros s h t last' flast' [A B C D F G [H1 H2] I SN] L1 L2 T1 T2 T3.
  assert (ex : forall id, In id (exprs [t]) -> fc_last s < id <= last').
  { intros id X. destruct t; cbn in X; try (destruct X; fail). destruct X as [<-|[]]. eapply T1; reflexivity. }
  assert (fx : forall id, In id (fsets [t]) -> fc_flast s < id <= flast').
  { intros id X. destruct t; cbn in X; try (destruct X; fail). destruct X as [<-|[]]. eapply T3; reflexivity. }
  constructor; cbn [fc_pit fc_last fc_queue fc_filters fc_flast]; auto.
  - intros e He. specialize (B _ He). lia.
  - intros id. rewrite exprs_app. intro X. apply in_app_or in X. destruct X as [X|X].
    + destruct (C _ X) as (C1 & C2). split; [lia | exact C2].
    + apply ex in X. splits; [lia | |].
      * intro Y. apply in_map_iff in Y. destruct Y as (e & <- & Y). specialize (B _ Y). lia.
      * intro Y. apply G in Y. lia.
  - rewrite exprs_app. apply NoDup_app_intro; [exact D | |].
    + destruct t; cbn; try constructor; auto; constructor.
    + intros x X Y. apply C in X. apply ex in Y. lia.
  - intros q1 id q2 E. apply snoc_split in E. destruct E as [(-> & E & ->)|(b' & -> & E)].
    + split; [|intros []]. specialize (T2 id (eq_sym E)). lia.
    + destruct (F _ _ _ E) as [F1 F2]. split; [lia|]. rewrite exprs_app. intro X. apply in_app_or in X. destruct X as [X|X]; [exact (F2 X)|]. apply ex in X. lia.
  - intros id X. apply G in X. lia.
  - rewrite fsets_app, app_assoc. split.
    + apply NoDup_app_intro; [exact H1 | |].
      * destruct t; cbn; try constructor; auto; constructor.
      * intros x X Y. apply H2 in X. apply fx in Y. lia.
    + intros i X. apply in_app_or in X. destruct X as [X|X]; [apply H2 in X; lia | apply fx in X; lia].
Qed.
Lemma gone_post : forall s t last' flast' i, gone s i -> fc_last s <= last' -> (forall id q b, t = TExpress id q b -> fc_last s < id) ->
  gone (mkFace last' (fc_pit s) flast' (fc_filters s) (fc_queue s ++ [t])) i.
Proof.
  intros s t last' flast' i (A & B & C) L T. unfold gone. splits; cbn; [lia | exact B|]. rewrite exprs_app. intro X. apply in_app_or in X. destruct X as [X|X]; [exact (C X)|].
  destruct t; cbn in X; try (destruct X; fail). destruct X as [<-|[]]. specialize (T _ _ _ eq_refl). lia.
Qed.
Lemma SF_nil : forall s s', (forall i, gone s i -> gone s' i) -> SF (gone s) s s' [].
Proof.
  intros s s' H. constructor; cbn; try (intros; contradiction).
  - constructor.
  - intros [|? ?] ? ? E; discriminate.
  - intros [|? ?] ? E; discriminate.
  - intros i G. split; auto.
Qed.

Lemma fi_timer_HF : forall G s h id k, RI s h -> HF G s h (fst (fst (fi_timer id k s))) (snd (fst (fi_timer id k s))) (snd (fi_timer id k s)).
Proof.
  intros G s h id k R.
  assert (NOP : HF G s h s [] false).
  { constructor; auto; try lia.
    - exact (r_sorted _ _ R).
    - intros i (o & q & []).
    - intros e He. left. apply in_map; exact He.
    - constructor.
    - intros i [].
    - intros _ e He. rewrite app_nil_r. exact (r_K _ _ R _ He).
    - constructor. }
  unfold fi_timer. destruct (find _ _) as [e|] eqn:E; [|exact NOP]. apply find_some in E. destruct E as [E1 E2]. assert (f_id e = id) by lia. subst id. clear E2.
  destruct (f_timer e); [|exact NOP].
  assert (ER : forall x, In x (pit_erase (f_id e) (fc_pit s)) -> In x (fc_pit s) /\ f_id x <> f_id e).
  { intros x X. apply (filter_In (fun y => negb (f_id y =? f_id e))) in X. destruct X as [X1 X2]. split; [exact X1 | lia]. }
  destruct (f_origin e) eqn:EO.
  - destruct (now k); cbn [fst snd]; constructor; cbn [setPit fc_pit fc_queue fc_filters fc_flast fc_last]; auto; try lia.
    + apply psorted_map; [|exact (r_sorted _ _ R)]. intro x. destruct (_ =? _); reflexivity.
    + intros i (o & q & [X|[]]); discriminate.
    + intros x X. left. apply in_map_iff in X. destruct X as (y & <- & Y). apply in_map_iff. exists y. split; [destruct (_ =? _); reflexivity | exact Y].
    + cbn. constructor; [intros [] | constructor].
    + intros i [<-|[]]. split; [exists e; auto | discriminate].
    + intros x [<-|[]]. split; discriminate.
    + constructor.
    + apply psorted_filter. exact (r_sorted _ _ R).
    + intros i (o & q & [X|[]]); discriminate.
    + intros x X. left. apply in_map. apply ER; exact X.
    + cbn. constructor; [intros [] | constructor].
    + intros i [<-|[]]. split; [exists e; auto|]. intros _ X. apply in_map_iff in X. destruct X as (y & Y1 & Y2). apply ER in Y2. tauto.
    + intros x [<-|[]]. split; discriminate.
    + intros _ x X. apply K_idle; [apply (r_K _ _ R); apply ER; exact X|]. intros y [<-|[]]. split; [reflexivity | discriminate].
    + constructor.
  - cbn [fst snd]; constructor; cbn [setPit fc_pit fc_queue fc_filters fc_flast fc_last]; auto; try lia.
    + apply psorted_filter. exact (r_sorted _ _ R).
    + intros i (o & q & []).
    + intros x X. left. apply in_map. apply ER; exact X.
    + constructor.
    + intros i [].
    + intros _ x X. rewrite app_nil_r. apply (r_K _ _ R). apply ER; exact X.
    + constructor.
Qed.
Lemma fi_putData_HF : forall G s h d big k, RI s h -> HF G s h (fst (fst (fi_putData d big k s))) (snd (fst (fi_putData d big k s))) (snd (fi_putData d big k s)).
Proof.
  intros G s h d big k R. unfold fi_putData.
  assert (Q0 : quiet []) by (intros x []). assert (Q1 : quiet [EvSendData d]) by (intros x [<-|[]]; eauto).
  pose proof (fun t T => HF_data G s h d k [] t R Q0 T) as H0. rewrite app_nil_r in H0. pose proof (fun t T => HF_data G s h d k _ t R Q1 T) as H1.
  destruct (sa_thr _) eqn:E; [|destruct (negb _); [|destruct big]]; cbn [fst snd].
  - apply H0. discriminate.
  - apply H0. auto.
  - apply H0. discriminate.
  - apply H1. auto.
Qed.
Lemma fi_putNack_HF : forall G s h q r big k o, RI s h -> fi_putNack q r big k s = Ok o -> HF G s h (fst (fst o)) (snd (fst o)) (snd o).
Proof.
  intros G s h q r big k o R H. unfold fi_putNack in H. destruct (nackPend q r k (fc_pit s)) as [x|] eqn:E; [|discriminate]. cbn [bind] in H.
  assert (Q0 : quiet []) by (intros y []). assert (Q1 : forall r', quiet [EvSendNack q r']) by (intros r' y [<-|[]]; eauto).
  pose proof (fun t T => HF_nack G s h q r k x [] t R Q0 E T) as H0. rewrite app_nil_r in H0. pose proof (fun r' t T => HF_nack G s h q r k x _ t R (Q1 r') E T) as H1.
  destruct (na_thr x) eqn:ET; [|destruct (na_out x) as [r'|]; [destruct big|]]; injection H as <-; cbn [fst snd].
  - apply H0. discriminate.
  - apply H0. discriminate.
  - apply H1. auto.
  - apply H0. auto.
Qed.
Lemma fi_incoming_HF : forall s h q k o, RI s h -> fi_incoming q k s = Ok o -> HF (gone s) s h (fst (fst o)) (snd (fst o)) (snd o).
Proof.
  intros s h q k o R H. unfold fi_incoming in H.
  assert (NI : ~ In (fc_last s + 1) (ids (fc_pit s))).
  { intro X. apply in_map_iff in X. destruct X as (e & E & X). pose proof (r_ids _ _ R _ X). lia. }
  destruct (pit_put_ok (mkPend (fc_last s + 1) q FORWARDER 0 None true) (fc_pit s) (r_sorted _ _ R) NI) as (p & P1 & P2 & P3).
  rewrite P1 in H. cbn [bind] in H. destruct (dispatch _ _ _ _ _) as [[c ev] t] eqn:ED. injection H as <-. cbn [fst snd].
  pose proof (HF_start (gone s) s h (fc_last s + 1) FORWARDER q false k p t (fc_last s + 1) R) as HS. rewrite ED in HS. cbn [fst snd app] in HS.
  apply HS; auto; try lia.
  - intro X. apply (r_start _ _ R) in X. lia.
  - intro X. apply (r_queue _ _ R) in X. lia.
  - intros (X & _). lia.
  - discriminate.
Qed.
Lemma fi_express_HF : forall s h id q big rest k o, RI s h -> fc_queue s = TExpress id q big :: rest -> fi_express id q big k (popped s rest) = Ok o ->
  HF (gone s) (popped s rest) h (fst (fst o)) (snd (fst o)) (snd o).
Proof.
  intros s h id q big rest k o R E H. pose proof (RI_pop _ _ _ _ R E) as R0.
  assert (X0 : In id (exprs (fc_queue s))) by (rewrite E; left; reflexivity).
  destruct (r_queue _ _ R _ X0) as (A & B & C).
  assert (NQ : ~ In id (exprs rest)). { pose proof (r_qnd _ _ R) as D. rewrite E in D. cbn in D. inversion D; auto. }
  assert (NG : ~ gone s id) by (intros (_ & _ & X); exact (X X0)).
  unfold fi_express in H. cbn [popped fc_pit fc_filters] in H.
  destruct (pit_put_ok (mkPend id q APP 1 None true) (fc_pit s) (r_sorted _ _ R) B) as (p & P1 & P2 & P3). rewrite P1 in H. cbn [bind] in H.
  destruct big.
  - injection H as <-. cbn [fst snd]. constructor; cbn [setPit popped fc_pit fc_queue fc_filters fc_flast fc_last]; auto; try lia.
    + intros i (o' & q' & [X|[]]). injection X as <- _ _. auto.
    + intros e He. apply P3 in He. destruct He as [->|He]; [right; exists APP, q; left; reflexivity | left; apply in_map; exact He].
    + constructor.
    + intros i [].
    + intros x [<-|[]]. split; discriminate.
    + cbn. constructor; [intros [] | constructor].
  - destruct (dispatch _ _ _ _ _) as [[c ev] t] eqn:ED. injection H as <-. cbn [fst snd].
    pose proof (HF_start (gone s) (popped s rest) h id APP q true k p t (fc_last s) R0) as HS. cbn [popped fc_filters fc_pit fc_queue fc_last fc_flast] in HS. rewrite ED in HS. cbn [fst snd app] in HS.
    apply HS; auto; lia.
Qed.

Lemma finish_all : forall s h (G : N -> Prop), RI s h -> (forall i, G i -> gone s i) -> RI (setPit [] s) (h ++ [EvRemoveAll]) /\ forall s0, SF G s0 (setPit [] s) [EvRemoveAll].
Proof.
  intros s h G R GG. split.
  - destruct R as [A B C D F G' H I SN]. constructor; cbn [setPit fc_pit fc_last fc_queue fc_filters fc_flast]; auto.
    + constructor.
    + intros e [].
    + intros i X. destruct (C i X) as (C1 & C2 & C3). splits; [exact C1 | intros [] |]. rewrite started_app. intros [Y|(o & q & [Y|[]])]; [exact (C3 Y) | discriminate].
    + intros i. rewrite started_app. intros [Y|(o & q & [Y|[]])]; [exact (G' _ Y) | discriminate].
    + intros e [].
    + rewrite starts_app. cbn. rewrite app_nil_r. exact SN.
  - intro s0. constructor; cbn [cbs cbid].
    + intros i [].
    + constructor.
    + intros l i b X. destruct l as [|? [|? ?]]; discriminate.
    + intros l b X. destruct l as [|? [|? ?]]; [|discriminate|discriminate]. injection X as <-. split; reflexivity.
    + intros i Gi. split; [|intros []]. destruct (GG _ Gi) as (G1 & G2 & G3). unfold gone. splits; [exact G1 | intros [] | exact G3].
Qed.
Lemma Ok_inj : forall A (x y : A), Ok x = Ok y -> x = y. Proof. intros A x y H. injection H; auto. Qed.
Lemma out_eta : forall o : out, o = (fst (fst o), snd (fst o), snd o). Proof. intros [[? ?] ?]; reflexivity. Qed.
Lemma step_ok : forall a s h r, RI s h -> fc_step true a s = Ok r -> RI (fst r) (h ++ snd r) /\ SF (gone s) s (fst r) (snd r).
Proof.
  intros a s h r R H.
  assert (POST : forall t last' flast', fc_last s <= last' -> fc_flast s <= flast' ->
    (forall id q b, t = TExpress id q b -> fc_last s < id <= last') -> (forall id, t = TRemove id -> id <= fc_last s) ->
    (forall id f, t = TSetFilter id f -> fc_flast s < id <= flast') ->
    let s' := mkFace last' (fc_pit s) flast' (fc_filters s) (fc_queue s ++ [t]) in RI s' (h ++ []) /\ SF (gone s) s s' []).
  { intros t last' flast' L1 L2 T1 T2 T3. cbv zeta. rewrite app_nil_r. split; [apply RI_post; auto|]. apply SF_nil. intros i G. apply gone_post; auto. intros id q b E. apply (T1 _ _ _ E). }
  assert (NOP : RI s (h ++ []) /\ SF (gone s) s s []) by (rewrite app_nil_r; split; [exact R | apply SF_nil; auto]).
  assert (FIN : forall o, HF (gone s) s h (fst (fst o)) (snd (fst o)) (snd o) -> RI (fst (fc_finish true o)) (h ++ snd (fc_finish true o)) /\ SF (gone s) s (fst (fc_finish true o)) (snd (fc_finish true o))).
  { intros o HO. rewrite (out_eta o). apply finish_ok; auto. }
  destruct a; cbn [fc_step] in H.
  - injection H as <-. cbn [fst snd post fc_last fc_pit fc_flast fc_filters fc_queue]. refine (POST (TExpress (fc_last s + 1) q big) (fc_last s + 1) (fc_flast s) _ _ _ _ _); try lia; try (intros; discriminate). intros i q' b E. injection E as <- _ _. lia.
  - injection H as <-. cbn [fst snd]. destruct (id <=? fc_last s) eqn:E; [|exact NOP]. refine (POST (TRemove id) (fc_last s) (fc_flast s) _ _ _ _ _); try lia; try (intros; discriminate). intros i X. injection X as <-. lia.
  - injection H as <-. refine (POST TRemoveAll (fc_last s) (fc_flast s) _ _ _ _ _); try lia; intros; discriminate.
  - injection H as <-. refine (POST (TPutData d big) (fc_last s) (fc_flast s) _ _ _ _ _); try lia; intros; discriminate.
  - injection H as <-. refine (POST (TPutNack q r0 big) (fc_last s) (fc_flast s) _ _ _ _ _); try lia; intros; discriminate.
  - injection H as <-. cbn [fst snd post fc_last fc_pit fc_flast fc_filters fc_queue]. refine (POST (TSetFilter (fc_flast s + 1) f) (fc_last s) (fc_flast s + 1) _ _ _ _ _); try lia; try (intros; discriminate). intros i f' E. injection E as <- _. lia.
  - injection H as <-. cbn [fst snd]. destruct (id <=? fc_flast s) eqn:E; [|exact NOP]. refine (POST (TUnset id) (fc_last s) (fc_flast s) _ _ _ _ _); try lia; intros; discriminate.
  - injection H as <-. refine (POST TShutdown (fc_last s) (fc_flast s) _ _ _ _ _); try lia; intros; discriminate.
  - destruct (fc_queue s) as [|t rest] eqn:EQ; [injection H as <-; exact NOP|].
    pose proof (RI_pop _ _ _ _ R EQ) as R0. change (mkFace (fc_last s) (fc_pit s) (fc_flast s) (fc_filters s) rest) with (popped s rest) in H.
    destruct (run_task t k (popped s rest)) as [o|] eqn:ET; [|discriminate]. cbn [bind] in H. injection H as <-.
    assert (LIFT : forall G : N -> Prop, (forall i, G i -> gone (popped s rest) i) -> HF G (popped s rest) h (fst (fst o)) (snd (fst o)) (snd o) ->
       RI (fst (fc_finish true o)) (h ++ snd (fc_finish true o)) /\ SF G s (fst (fc_finish true o)) (snd (fc_finish true o))).
    { intros G GG HO. rewrite (out_eta o). destruct (finish_ok G (popped s rest) h _ _ _ R0 GG HO) as [X [Y1 Y2 Y3 Y4 Y5]]. split; [exact X|]. constructor; auto. }
    assert (GP : forall i, gone s i -> gone (popped s rest) i) by (intros i; apply (gone_pop _ _ _ _ EQ)).
    assert (FT : forall q : N * filt -> bool, RI (setFilters (filter q (fc_filters s)) (popped s rest)) h).
    { intro q. destruct R0 as [A B C D F G' [H1 H2] I SN]. constructor; cbn [setFilters popped fc_pit fc_last fc_queue fc_filters fc_flast] in *; auto.
      assert (SUB : forall i, In i (map fst (filter q (fc_filters s))) -> In i (map fst (fc_filters s))).
      { intros i X. apply in_map_iff in X. destruct X as (y & <- & Y). apply in_map. apply (filter_In q) in Y. tauto. }
      split.
      - clear - H1 SUB. induction (fc_filters s) as [|x l IH]; cbn in *; [exact H1|]. inversion H1; subst. destruct (q x); cbn.
        + constructor; [|apply IH; auto; intros i X; apply in_map_iff in X; destruct X as (y & <- & Y); apply in_map; apply (filter_In q) in Y; tauto].
          intro X. apply H2. apply in_app_or in X. apply in_or_app. destruct X as [X|X]; [left|auto].
          apply in_map_iff in X. destruct X as (y & Y0 & Y). rewrite <- Y0. apply in_map. apply (filter_In q) in Y. tauto.
        + apply IH; auto. intros i X; apply in_map_iff in X; destruct X as (y & <- & Y); apply in_map; apply (filter_In q) in Y; tauto.
      - intros i X. apply H2. apply in_app_or in X. apply in_or_app. destruct X as [X|X]; auto. }
    destruct t; cbn [run_task] in ET.
    + apply LIFT; [exact GP|]. eapply fi_express_HF; [exact R | exact EQ | exact ET].
    + injection ET as <-. cbn [fc_finish andb fst snd]. destruct (r_rem _ _ R [] _ _ EQ) as [Q1 Q2].
      assert (ER : forall x, In x (pit_erase id (fc_pit s)) -> In x (fc_pit s) /\ f_id x <> id).
      { intros x X. apply (filter_In (fun y => negb (f_id y =? id))) in X. destruct X as [X1 X2]. split; [exact X1 | lia]. }
      assert (IDS : forall i, In i (ids (pit_erase id (fc_pit s))) -> In i (ids (fc_pit s)) /\ i <> id).
      { intros i X. apply in_map_iff in X. destruct X as (e & <- & X). apply ER in X. destruct X as [X1 X2]. split; [apply in_map; exact X1 | exact X2]. }
      split.
      * destruct R0 as [A B C D F G' H I SN]. constructor; cbn [setPit popped fc_pit fc_last fc_queue fc_filters fc_flast] in *; auto.
        -- apply psorted_filter; exact A.
        -- intros e He. apply B. apply ER; exact He.
        -- intros i X. destruct (C i X) as (C1 & C2 & C3). splits; [exact C1 | intro Y; apply C2; apply IDS; exact Y|].
           rewrite started_app. intros [Y|(o & q & [Y|[]])]; [exact (C3 Y) | discriminate].
        -- intros i. rewrite started_app. intros [Y|(o & q & [Y|[]])]; [exact (G' _ Y) | discriminate].
        -- intros e He. apply K_idle; [apply I; apply ER; exact He|]. intros x [<-|[]]. split; [reflexivity | discriminate].
        -- rewrite starts_app. cbn. rewrite app_nil_r. exact SN.
      * constructor; cbn [cbs cbid].
        -- intros i [].
        -- constructor.
        -- intros l i b X. destruct l as [|? [|? ?]]; [|discriminate|discriminate]. injection X as <- <-. split; [reflexivity|]. unfold gone. splits; cbn; [exact Q1 | | exact Q2].
           intro Y. apply IDS in Y. tauto.
        -- intros l b X. destruct l as [|? [|? ?]]; discriminate.
        -- intros i Gi. split; [|intros []]. destruct (GP _ Gi) as (G1 & G2 & G3). unfold gone. splits; cbn; [exact G1 | | exact G3]. intro Y. apply G2. apply IDS; exact Y.
    + assert (X : o = (setPit [] (popped s rest), [EvRemoveAll], false)) by congruence. subst o. cbn [fc_finish andb fst snd].
      destruct (finish_all _ _ _ R0 GP) as [X1 X2]. split; [exact X1 | apply X2].
    + injection ET as <-. apply LIFT; [exact GP|]. apply fi_putData_HF; exact R0.
    + apply LIFT; [exact GP|]. eapply fi_putNack_HF; [exact R0 | exact ET].
    + injection ET as <-. cbn [fc_finish andb fst snd]. rewrite app_nil_r. split; [|apply SF_nil; exact GP].
      destruct R0 as [A B C D F G' [H1 H2] I SN]. constructor; cbn [setFilters popped fc_pit fc_last fc_queue fc_filters fc_flast] in *; auto.
      destruct (r_filt _ _ R) as [N1 N2]. rewrite EQ in N1, N2. cbn in N1, N2. rewrite map_app, <- app_assoc. cbn. split; [exact N1 | exact N2].
    + injection ET as <-. cbn [fc_finish andb fst snd]. rewrite app_nil_r. split; [apply FT | apply SF_nil; exact GP].
    + assert (X : o = (setPit [] (popped s rest), [EvRemoveAll], false)) by congruence. subst o. cbn [fc_finish andb fst snd].
      destruct (finish_all _ _ _ R0 GP) as [X1 X2]. split; [exact X1 | apply X2].
  - destruct (fi_incoming q k s) as [o|] eqn:E; [|discriminate]. injection H as <-. apply FIN. eapply fi_incoming_HF; [exact R | exact E].
  - apply Ok_inj in H; subst r. apply (FIN (fi_data d k s)). unfold fi_data. cbn [fst snd].
    pose proof (HF_data (gone s) s h d k [] (sa_thr (satisfy d k (fc_pit s))) R) as X. rewrite app_nil_r in X. apply X; [intros x [] | auto].
  - destruct (fi_nack q r0 k s) as [o|] eqn:E; [|discriminate]. injection H as <-. apply FIN. unfold fi_nack in E.
    destruct (nackPend q r0 k (fc_pit s)) as [x|] eqn:EN; [|discriminate]. injection E as <-. cbn [fst snd].
    pose proof (HF_nack (gone s) s h q r0 k x [] (na_thr x) R) as X. rewrite app_nil_r in X. apply X; [intros y [] | exact EN | auto].
  - apply Ok_inj in H; subst r. apply FIN. apply fi_timer_HF; exact R.
Qed.

(* ---------- runs ---------- *)
Lemma RI_init : RI fc_init [].
Proof.
  constructor; cbn.
  - constructor.
  - intros e [].
  - intros id [].
  - constructor.
  - intros [|? ?] id q2 E; discriminate.
  - intros id (o & q & []).
  - split; [constructor | intros i []].
  - intros e [].
  - constructor.
Qed.
Lemma run_ok : forall acts s h r, RI s h -> fc_run true acts s = Ok r -> RI (fst r) (h ++ snd r) /\ forall i, gone s i -> gone (fst r) i /\ ~ In i (cbs (snd r)).
Proof.
  induction acts as [|a acts IH]; intros s h r R H; cbn [fc_run] in H.
  - injection H as <-. cbn. rewrite app_nil_r. split; [exact R | auto].
  - destruct (fc_step true a s) as [r1|] eqn:E1; [|discriminate]. cbn [bind] in H.
    destruct (fc_run true acts (fst r1)) as [r2|] eqn:E2; [|discriminate]. cbn [bind] in H. injection H as <-. cbn [fst snd].
    destruct (step_ok _ _ _ _ R E1) as [R1 S1]. destruct (IH _ _ _ R1 E2) as [R2 G2]. rewrite app_assoc. split; [exact R2|].
    intros i Gi. destruct (s_gone _ _ _ _ S1 i Gi) as [A B]. destruct (G2 i A) as [C D]. split; [exact C|]. rewrite cbs_app. intro X. apply in_app_or in X. tauto.
Qed.
Lemma app_mid : forall (A : Type) (p q a : list A) e b, p ++ q = a ++ e :: b ->
  (exists y, p = a ++ e :: y /\ b = y ++ q) \/ (exists x, a = p ++ x /\ q = x ++ e :: b).
Proof.
  induction p as [|z p IH]; intros q a e b E; cbn in E; [right; exists a; auto|]. destruct a as [|w a].
  - left. cbn in E. injection E as -> <-. exists p; auto.
  - cbn in E. injection E as -> E. destruct (IH _ _ _ _ E) as [(y & -> & ->)|(x & -> & ->)]; [left; exists y | right; exists x]; auto.
Qed.
Lemma run_split : forall acts s r a e b, fc_run true acts s = Ok r -> snd r = a ++ e :: b ->
  exists acts1 act acts2 s1 h1 r2 r3 x y, fc_run true acts1 s = Ok (s1, h1) /\ fc_step true act s1 = Ok r2 /\ snd r2 = x ++ e :: y /\
    fc_run true acts2 (fst r2) = Ok r3 /\ acts = acts1 ++ act :: acts2 /\ a = h1 ++ x /\ b = y ++ snd r3.
Proof.
  induction acts as [|a0 acts IH]; intros s r a e b H E; cbn [fc_run] in H.
  - injection H as <-. destruct a; discriminate.
  - destruct (fc_step true a0 s) as [r1|] eqn:E1; [|discriminate]. cbn [bind] in H.
    destruct (fc_run true acts (fst r1)) as [r2|] eqn:E2; [|discriminate]. cbn [bind] in H. injection H as <-. cbn [fst snd] in E.
    apply app_mid in E. destruct E as [(y & A & B)|(x & A & B)].
    + exists [], a0, acts, s, [], r1, r2, a, y. splits; auto.
    + destruct (IH _ _ _ _ _ E2 B) as (acts1 & act & acts2 & s1 & h1 & r3 & r4 & x' & y & C1 & C2 & C3 & C4 & C5 & C6 & C7).
      exists (a0 :: acts1), act, acts2, s1, (snd r1 ++ h1), r3, r4, x', y. splits; auto.
      * cbn [fc_run]. rewrite E1. cbn [bind]. rewrite C1. reflexivity.
      * rewrite C5. reflexivity.
      * rewrite A, C6, app_assoc. reflexivity.
Qed.
Lemma reach_RI : forall acts s h, face_reached true acts s h -> RI s h.
Proof. intros acts s h H. exact (proj1 (run_ok _ _ _ _ RI_init H)). Qed.
Lemma reach_split : forall acts s h a e b, face_reached true acts s h -> h = a ++ e :: b ->
  exists acts1 act s1 h1 s2 ev x y h3, face_reached true acts1 s1 h1 /\ fc_step true act s1 = Ok (s2, ev) /\ RI s2 (h1 ++ ev) /\ SF (gone s1) s1 s2 ev /\ RI s1 h1 /\
    ev = x ++ e :: y /\ a = h1 ++ x /\ b = y ++ h3 /\ forall i, gone s2 i -> ~ In i (cbs h3).
Proof.
  intros acts s h a e b H E. destruct (run_split _ _ _ a e b H E) as (acts1 & act & acts2 & s1 & h1 & [s2 ev] & r3 & x & y & A & B & C & D & F & G & I).
  cbn [fst snd] in *. pose proof (reach_RI _ _ _ A) as R1. destruct (step_ok _ _ _ _ R1 B) as [R2 S2]. cbn [fst snd] in *.
  exists acts1, act, s1, h1, s2, ev, x, y, (snd r3). splits; auto. intros i Gi. apply (proj2 (run_ok _ _ _ _ R2 D)). exact Gi.
Qed.
Lemma answers_in : forall id e l, In e l -> answers id e -> In id (cbs l).
Proof. intros id e l A B. apply cbs_in. exists e; auto. Qed.
Lemma started_in_pit : forall s h e, RI s h -> In e (fc_pit s) -> In (EvStart (f_id e) (f_origin e) (f_q e)) h.
Proof. intros s h e R He. destruct (r_K _ _ R _ He) as (a & b & l & -> & _). apply in_or_app; right; left; reflexivity. Qed.

(* ---------- where Nack callbacks come from ---------- *)
Definition notcb (e : fev) : Prop := forall i r, e <> EvCbNack i r.
Lemma cb_pos : forall e0 l tail x i r y, e0 :: l ++ tail = x ++ EvCbNack i r :: y -> notcb e0 -> (forall z, In z tail -> notcb z) ->
  exists x' y', x = e0 :: x' /\ l = x' ++ EvCbNack i r :: y'.
Proof.
  intros e0 l tail x i r y E N T. destruct x as [|w x]; [cbn in E; injection E as E _; destruct (N i r E)|].
  cbn in E. injection E as -> E. apply app_mid in E. destruct E as [(y' & -> & _)|(x' & _ & E)]; [eauto|]. exfalso.
  apply (T (EvCbNack i r)) with (i := i) (r := r); [rewrite E; apply in_or_app; right; left; reflexivity | reflexivity].
Qed.
Definition cbFrom (s : face) (x : list fev) (i r : N) : Prop :=
  exists q r0 e x', x = EvNack q r0 :: x' /\ (forall z, In z x' -> exists j r', z = EvCbNack j r') /\ In e (fc_pit s) /\ f_id e = i /\ nackHit q r0 e r.
Lemma nack_from : forall s q r0 k n tail x i r y, psorted (fc_pit s) -> nackPend q r0 k (fc_pit s) = Ok n ->
  EvNack q r0 :: na_ev n ++ tail = x ++ EvCbNack i r :: y -> (forall z, In z tail -> notcb z) -> cbFrom s x i r.
Proof.
  intros s q r0 k n tail x i r y P H E T. destruct (nack_spec _ _ _ _ _ H P) as (_ & B & _ & _).
  destruct (cb_pos _ _ _ _ _ _ _ E) as (x' & y' & -> & L); [intros ? ? X; discriminate | exact T|].
  destruct (B (EvCbNack i r)) as (e & least & E1 & E2 & E3); [rewrite L; apply in_or_app; right; left; reflexivity|]. injection E2 as -> ->.
  exists q, r0, e, x'. splits; auto. intros z Z. destruct (B z) as (e' & l' & _ & -> & _); [rewrite L; apply in_or_app; left; exact Z | eauto].
Qed.
Lemma no_cbs : forall (ev : list fev) x i r y, ev = x ++ EvCbNack i r :: y -> (forall z, In z ev -> notcb z) -> False.
Proof. intros ev x i r y -> H. apply (H (EvCbNack i r)) with (i := i) (r := r); [apply in_or_app; right; left; reflexivity | reflexivity]. Qed.
Lemma finish_ev : forall o, exists t, snd (fc_finish true o) = snd (fst o) ++ t /\ forall z, In z t -> notcb z.
Proof.
  intros [[s ev] t]. cbn. destruct t; cbn; [exists [EvRemoveAll]; split; [reflexivity|]; intros z [<-|[]] ? ? ?; discriminate | exists []; rewrite app_nil_r; split; [reflexivity | intros z []]].
Qed.
Lemma dispatch_notcb : forall id o n k l z, In z (snd (fst (dispatch id o n k l))) -> notcb z.
Proof. intros id o n k l z H. apply dispatch_ev in H. destruct H as (fid & ->). intros ? ? ?; discriminate. Qed.
Lemma data_notcb : forall d k l z, In z (sa_ev (satisfy d k l)) -> notcb z.
Proof. intros d k l z H. apply satisfy_evs in H. destruct H as (i & d' & ->). intros ? ? ?; discriminate. Qed.
Lemma step_cb : forall act s h s' ev x i r y, RI s h -> fc_step true act s = Ok (s', ev) -> ev = x ++ EvCbNack i r :: y -> cbFrom s x i r.
Proof.
  intros act s h s' ev x i r y R H E.
  assert (NIL : ev = [] -> cbFrom s x i r) by (intros ->; destruct x; discriminate).
  assert (NO : (forall z, In z ev -> notcb z) -> cbFrom s x i r) by (intro N; destruct (no_cbs _ _ _ _ _ E N)).
  assert (FIN : forall o, Ok (fc_finish true o) = Ok (s', ev) -> exists t, ev = snd (fst o) ++ t /\ forall z, In z t -> notcb z).
  { intros o X. apply Ok_inj in X. destruct (finish_ev o) as (t & A & B). rewrite X in A. cbn in A. eauto. }
  assert (FNO : forall o, Ok (fc_finish true o) = Ok (s', ev) -> (forall z, In z (snd (fst o)) -> notcb z) -> cbFrom s x i r).
  { intros o X N. apply NO. destruct (FIN _ X) as (t & -> & B). intros z Z. apply in_app_or in Z. destruct Z; auto. }
  destruct act; cbn [fc_step] in H.
  1-8: (injection H as _ <-; apply NIL; reflexivity).
  - destruct (fc_queue s) as [|t rest]; [injection H as _ <-; apply NIL; reflexivity|].
    destruct (run_task t k _) as [o|] eqn:ET; [|discriminate]. cbn [bind] in H.
    destruct t; cbn [run_task] in ET.
    + apply (FNO _ H). unfold fi_express in ET. destruct (pit_put _ _); [|discriminate]. cbn [bind] in ET. destruct big.
      * injection ET as <-. intros z [<-|[]] ? ? ?; discriminate.
      * destruct (dispatch _ _ _ _ _) as [[c e2] t] eqn:ED. injection ET as <-. cbn. intros z [<-|[<-|Z]]; try (intros ? ? ?; discriminate).
        eapply dispatch_notcb. rewrite ED. exact Z.
    + injection ET as <-. apply (FNO _ H). intros z [<-|[]] ? ? ?; discriminate.
    + injection ET as <-. apply (FNO _ H). intros z [<-|[]] ? ? ?; discriminate.
    + injection ET as <-. apply (FNO _ H). unfold fi_putData. cbn [fc_pit].
      assert (Z1 : forall z, In z (EvData d :: sa_ev (satisfy d k (fc_pit s))) -> notcb z) by (intros z [<-|Z]; [intros ? ? ?; discriminate | eapply data_notcb; exact Z]).
      destruct (sa_thr _); [exact Z1|]. destruct (negb _); [exact Z1|]. destruct big; [exact Z1|]. cbn.
      intros z [<-|Z]; [intros ? ? ?; discriminate|]. apply in_app_or in Z. destruct Z as [Z|[<-|[]]]; [eapply data_notcb; exact Z | intros ? ? ?; discriminate].
    + destruct (FIN _ H) as (t & A & B). unfold fi_putNack in ET. cbn [fc_pit] in ET. destruct (nackPend q r0 k (fc_pit s)) as [n|] eqn:EN; [|discriminate]. cbn [bind] in ET.
      assert (X : exists tl, snd (fst o) = EvNack q r0 :: na_ev n ++ tl /\ forall z, In z tl -> notcb z).
      { destruct (na_thr n); [injection ET as <-; exists []; cbn; rewrite app_nil_r; split; [reflexivity | intros z []]|].
        destruct (na_out n) as [r'|]; [destruct big|]; injection ET as <-; cbn.
        - exists []; rewrite app_nil_r; split; [reflexivity | intros z []].
        - exists [EvSendNack q r']; split; [reflexivity | intros z [<-|[]] ? ? ?; discriminate].
        - exists []; rewrite app_nil_r; split; [reflexivity | intros z []]. }
      destruct X as (tl & X1 & X2). rewrite X1 in A. cbn in A. rewrite <- app_assoc in A. rewrite E in A.
      eapply nack_from; [exact (r_sorted _ _ R) | exact EN | symmetry; exact A |]. intros z Z. apply in_app_or in Z. destruct Z; auto.
    + injection ET as <-. apply (FNO _ H). intros z [].
    + injection ET as <-. apply (FNO _ H). intros z [].
    + injection ET as <-. apply (FNO _ H). intros z [<-|[]] ? ? ?; discriminate.
  - destruct (fi_incoming q k s) as [o|] eqn:ET; [|discriminate]. cbn [bind] in H. apply (FNO _ H).
    unfold fi_incoming in ET. destruct (pit_put _ _); [|discriminate]. cbn [bind] in ET.
    destruct (dispatch _ _ _ _ _) as [[c e2] t] eqn:ED. injection ET as <-. cbn. intros z [<-|Z]; [intros ? ? ?; discriminate|].
    eapply dispatch_notcb. rewrite ED. exact Z.
  - apply (FNO _ H). unfold fi_data. cbn. intros z [<-|Z]; [intros ? ? ?; discriminate | eapply data_notcb; exact Z].
  - destruct (fi_nack q r0 k s) as [o|] eqn:ET; [|discriminate]. cbn [bind] in H. destruct (FIN _ H) as (t & A & B).
    unfold fi_nack in ET. destruct (nackPend q r0 k (fc_pit s)) as [n|] eqn:EN; [|discriminate]. injection ET as <-. cbn in A. rewrite E in A.
    eapply nack_from; [exact (r_sorted _ _ R) | exact EN | symmetry; exact A | exact B].
  - apply (FNO _ H). unfold fi_timer. destruct (find _ _) as [e|]; [|intros z []]. destruct (f_timer e); [|intros z []].
    destruct (f_origin e); [destruct (now k)|]; cbn; try (intros z [<-|[]] ? ? ?; discriminate). intros z [].
Qed.

(* ---------- the events of a Nack, for entries that wait for one ---------- *)
Lemma nack_out : forall s h q r n, RI s h -> nackPend q r None (fc_pit s) = Ok n ->
  na_thr n = false.
Proof.
  intros s h q r n _. generalize (fc_pit s). intro l. revert n. induction l as [|e l IH]; intros n H; cbn [nackPend] in H; [injection H as <-; reflexivity|].
  destruct (q_eqb q (f_q e)); cbn [negb] in H.
  - destruct (recordNack r e) as [p|]; [|discriminate]. cbn [bind] in H. destruct (snd p) as [least|].
    + destruct (f_origin e); cbn [now dec] in H; (destruct (nackPend q r None l) as [x|] eqn:E; [|discriminate]); cbn [bind] in H; injection H as <-; cbn; apply IH; reflexivity.
    + destruct (nackPend q r None l) as [x|] eqn:E; [|discriminate]; cbn [bind] in H; injection H as <-; cbn; apply IH; reflexivity.
  - destruct (nackPend q r None l) as [x|] eqn:E; [|discriminate]; cbn [bind] in H; injection H as <-; cbn; apply IH; reflexivity.
Qed.
Lemma nack_ok_rec : forall q r l k n e, nackPend q r k l = Ok n -> na_thr n = false -> In e l -> f_q e = q -> exists p, recordNack r e = Ok p.
Proof.
  intros q r. induction l as [|e0 l IH]; intros k n e H T He Q; [destruct He|]. cbn [nackPend] in H.
  destruct (q_eqb q (f_q e0)) eqn:EQ; cbn [negb] in H.
  - destruct (recordNack r e0) as [p|] eqn:ER; [|discriminate]. cbn [bind] in H. destruct He as [<-|He]; [eauto|].
    destruct (snd p) as [least|].
    + destruct (f_origin e0); [destruct (now k); [injection H as <-; discriminate T|]|];
      (destruct (nackPend q r _ l) as [x|] eqn:E; [|discriminate]); cbn [bind] in H; injection H as <-; (eapply IH; [exact E | exact T | exact He | exact Q]).
    + destruct (nackPend q r k l) as [x|] eqn:E; [|discriminate]; cbn [bind] in H; injection H as <-; (eapply IH; [exact E | exact T | exact He | exact Q]).
  - destruct (nackPend q r k l) as [x|] eqn:E; [|discriminate]; cbn [bind] in H; injection H as <-.
    destruct He as [<-|He]; [|eapply IH; [exact E | exact T | exact He | exact Q]].
    exfalso. assert (q_eqb q (f_q e0) = true) by (apply q_eqb_eq; auto). congruence.
Qed.

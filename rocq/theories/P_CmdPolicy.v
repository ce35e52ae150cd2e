(* Proofs for C52 *)
From Verif Require Import Base BaseLemmas M_Tlv S_Tlv P_Tlv P_Block M_Str M_Name S_Name P_NameUri M_Packet M_Ims P_Ims M_Control M_Signer M_IntPolicy S_IntPolicy P_IntPolicy.
From Coq Require Import ZArith Lia ZifyBool ZifyNat ZifyN.
Open Scope N_scope.
Open Scope Z_scope.

Definition keysOf (q : cstate) := map cr_key q.
Lemma cleanLoop_suffix : forall o e q, exists d, q = d ++ cleanLoop o e q.
Proof.
  intros o e q. induction q as [|r q [d IH]]; cbn [cleanLoop]; [exists []; reflexivity|].
  destruct (_ || _); [|exists []; reflexivity]. exists (r :: d). cbn [app]. now rewrite <- IH.
Qed.
Lemma cleanLoop_front : forall o e q, match cleanLoop o e q with
  | [] => True | r :: q' => e < cr_ref r /\ (co_max o < 0 \/ Z.of_N (nlen (r :: q')) <= co_max o) end.
Proof.
  intros o e q. induction q as [|r q IH]; cbn [cleanLoop]; [exact I|]. destruct (_ || _) eqn:B; [exact IH|]. lia.
Qed.
Lemma cleanLoop_keep : forall o e pre r post, e < cr_ref r -> (co_max o < 0 \/ Z.of_N (nlen (r :: post)) <= co_max o) ->
  exists pre', cleanLoop o e (pre ++ r :: post) = pre' ++ r :: post /\ exists d, pre = d ++ pre'.
Proof.
  intros o e pre r post R M. induction pre as [|x pre (pre' & E & d & D)]; cbn [app cleanLoop].
  - destruct (_ || _) eqn:B; [|exists []; split; [reflexivity|exists []; reflexivity]]. lia.
  - destruct (_ || _); [exists pre'; split; [exact E|exists (x :: d); cbn [app]; now rewrite <- D]|]. exists (x :: pre). split; [reflexivity|exists []; reflexivity].
Qed.
Lemma cfind_some : forall k q r, cfind k q = Some r -> In r q /\ cr_key r = k.
Proof. intros k q r H. apply find_some in H as [A B]. now apply names_eqb_eq in B. Qed.
Lemma cfind_none : forall k q r, cfind k q = None -> In r q -> cr_key r <> k.
Proof. intros k q r H I. apply (find_none _ _ H) in I. now apply names_eqb_neq in I. Qed.
Lemma nodup_keys : forall q r r', NoDup (keysOf q) -> In r q -> In r' q -> cr_key r = cr_key r' -> r = r'.
Proof.
  induction q as [|x q IH]; cbn [keysOf map]; intros r r' N A B E; [destruct A|]. inversion N as [|? ? N1 N2]; subst.
  destruct A as [->|A]; destruct B as [->|B]; auto.
  - contradiction N1. rewrite E. now apply in_map.
  - contradiction N1. rewrite <- E. now apply in_map.
Qed.
Lemma nodup_suffix : forall d q, NoDup (keysOf (d ++ q)) -> NoDup (keysOf q).
Proof. intros d q H. unfold keysOf in *. rewrite map_app in H. induction d as [|x d IH]; cbn [map app] in H; [exact H|]. inversion H; auto. Qed.

(* the check *)
Lemma check_inv : forall o sys st i q q' a, cmd_check o sys st i q = Ok (q', a) ->
  (q' = cleanLoop o (st - co_life o) q \/ q' = q /\ a = PFail /\ forall k ts, ~ is_command i k ts) /\
  (forall k ts, a = PGo (k, ts) -> q' = cleanLoop o (st - co_life o) q /\ is_command i k ts /\ sys - co_grace o <= ts <= sys + co_grace o /\
     match cfind k q' with Some r => cr_ts r < ts | None => True end) /\
  (a = PFail -> forall k ts, is_command i k ts -> ts < sys - co_grace o \/ sys + co_grace o < ts \/ exists r, In r q /\ cr_key r = k /\ ts <= cr_ts r).
Proof.
  intros o sys st i q q' a H. unfold cmd_check in H. destruct (parseCommand i) as [[|[k ts]]|] eqn:P; cbn [bind fst snd] in H; [| |discriminate].
  - assert (NC : forall k ts, ~ is_command i k ts) by (intros k ts X; apply parseCommand_iff in X; congruence).
    injection H as <- <-. splits; [right; auto|discriminate|]. intros _ k ts X. now apply NC in X.
  - apply parseCommand_iff in P. unfold checkTimestamp, cleanup in H.
    destruct (i64 (st - co_life o)) as [e|] eqn:E1; cbn [bind] in H; [|discriminate]. apply i64_inv in E1 as [-> _].
    destruct (i64 (sys - co_grace o)) as [lo|] eqn:E2; cbn [bind] in H; [|discriminate]. apply i64_inv in E2 as [-> _].
    destruct (i64 (sys + co_grace o)) as [hi|] eqn:E3; cbn [bind] in H; [|discriminate]. apply i64_inv in E3 as [-> _].
    assert (U : forall k' ts', is_command i k' ts' -> k' = k /\ ts' = ts) by (intros k' ts' X; apply parseCommand_iff in X, P; rewrite P in X; injection X as -> ->; auto).
    destruct ((ts <? sys - co_grace o) || (sys + co_grace o <? ts)) eqn:G; cbn [bind fst snd] in H.
    + injection H as <- <-. splits; [left; reflexivity|discriminate|]. intros _ k' ts' X. destruct (U _ _ X) as [-> ->]. lia.
    + destruct (cfind k (cleanLoop o (st - co_life o) q)) as [r|] eqn:F.
      * destruct (Z.leb_spec ts (cr_ts r)) as [L|L]; cbn [bind fst snd] in H; injection H as <- <-.
        -- splits; [left; reflexivity|discriminate|]. intros _ k' ts' X. destruct (U _ _ X) as [-> ->]. right; right. exists r.
           apply cfind_some in F as [Fi Fk]. splits; auto. destruct (cleanLoop_suffix o (st - co_life o) q) as [d D]. rewrite D. apply in_or_app; now right.
        -- splits; [left; reflexivity| |discriminate]. intros k' ts' [= <- <-]. splits; auto; try lia. rewrite F. lia.
      * cbn [bind fst snd] in H. injection H as <- <-. splits; [left; reflexivity| |discriminate]. intros k' ts' [= <- <-]. splits; auto; try lia. now rewrite F.
Qed.
(* the insertion *)
Lemma insert_other : forall u k ts pre r post, cr_key r <> k -> insertNewRecord u k ts (pre ++ r :: post) =
  filter (fun x => negb (names_eqb (cr_key x) k)) pre ++ r :: filter (fun x => negb (names_eqb (cr_key x) k)) post ++ [mkCR k ts u].
Proof.
  intros u k ts pre r post Ne. unfold insertNewRecord. rewrite filter_app. cbn [filter]. apply names_eqb_neq in Ne. rewrite Ne. cbn [negb].
  rewrite <- app_assoc. reflexivity.
Qed.
Lemma nodup_filter : forall f q, NoDup (keysOf q) -> NoDup (keysOf (filter f q)).
Proof.
  intros f q. induction q as [|x q IH]; cbn [filter keysOf map]; intro H; [constructor|]. inversion H as [|? ? A B]; subst.
  destruct (f x); [|auto]. cbn [keysOf map]. constructor; [|apply IH; exact B]. intro X. apply A. unfold keysOf in X. apply in_map_iff in X as (y & <- & Y).
  apply filter_In in Y as [Y _]. now apply in_map.
Qed.
Lemma nodup_snoc : forall (l : list (list key)) k, NoDup l -> ~ In k l -> NoDup (l ++ [k]).
Proof.
  intros l k N I. induction l as [|x l IH]; cbn [app]; [repeat constructor; auto|]. inversion N as [|? ? A B]; subst. constructor.
  - rewrite in_app_iff. intros [X|[->|[]]]; [auto|]. apply I. now left.
  - apply IH; [exact B|]. intro X. apply I. now right.
Qed.
Lemma insert_nodup : forall u k ts q, NoDup (keysOf q) -> NoDup (keysOf (insertNewRecord u k ts q)).
Proof.
  intros u k ts q H. unfold insertNewRecord, keysOf. rewrite map_app. cbn [map cr_key]. apply nodup_snoc; [now apply nodup_filter|].
  intro X. apply in_map_iff in X as (y & E & Y). apply filter_In in Y as [_ Y]. rewrite E, names_eqb_refl in Y. discriminate.
Qed.

Section Cmd.
Variable o : copts.
Notation reachC := (reach _ _ (cmd_check o) cmd_insert).
Notation stC := (pst cstate (list key * Z)).

Lemma tab_nodup : forall s t s', reachC s t s' -> NoDup (keysOf (ps_tab s)) -> NoDup (keysOf (ps_tab s')).
Proof.
  intros s t s' H. induction H as [s|e s s1 x t s2 P R IH]; intro N; [exact N|]. apply IH. clear IH R.
  assert (C : forall sys st i q a, cmd_check o sys st i (ps_tab s) = Ok (q, a) -> NoDup (keysOf q)).
  { intros sys st i q a C. destruct (check_inv _ _ _ _ _ _ _ C) as [[->|[-> _]] _]; [|exact N].
    destruct (cleanLoop_suffix o (st - co_life o) (ps_tab s)) as [d D]. rewrite D in N. now apply nodup_suffix in N. }
  destruct (step_cases _ _ _ _ _ _ _ _ P) as [(i&sys&st&?&?&b&_&X&_&<-&_)|[(?&?&?&?&_&X&<-&_)|[(?&?&?&?&_&_&->)|[(?&?&a&?&_&_&X&E&_)|[(?&_&->&_)|[_ ->]]]]]]; eauto.
  unfold cmd_insert in X. injection X as X. rewrite E, <- X. now apply insert_nodup.
Qed.

(* ---- the record of a key is kept ---- *)
Record kept (k : list key) (ts u : Z) (ks : list (list key)) (nx : N) (s : stC) : Prop := {
  kp_nodup : NoDup (keysOf (ps_tab s));
  kp_rec : exists pre r post, ps_tab s = pre ++ r :: post /\ cr_key r = k /\ ts <= cr_ts r /\ u <= cr_ref r /\
             (forall x, In x post -> co_max o < 0 \/ In (cr_key x) ks);
  kp_pend : forall id ts2, In (id, (k, ts2)) (ps_pend s) -> (nx <= id)%N -> ts < ts2;
  kp_next : (nx <= ps_next s)%N }.
(* what must hold of each observation *)
Definition okob (k : list key) (u : Z) (ks : list (list key)) (nx : N) (x : iobs (list key * Z)) : Prop :=
  match x with
  | ObPass _ _ st _ | ObRefuse _ st _ => st - co_life o < u
  | ObDone id u' a => u <= u' /\ (fst a = k -> (nx <= id)%N) /\ (fst a <> k -> co_max o < 0 \/ In (fst a) ks)
  | _ => True
  end.
Lemma kept_clean : forall k ts u ks nx s e q, kept k ts u ks nx s -> (co_max o < 0 \/ Z.of_N (nlen ks) < co_max o) -> e < u -> q = cleanLoop o e (ps_tab s) ->
  NoDup (keysOf q) /\ exists pre r post, q = pre ++ r :: post /\ cr_key r = k /\ ts <= cr_ts r /\ u <= cr_ref r /\ (forall x, In x post -> co_max o < 0 \/ In (cr_key x) ks).
Proof.
  intros k ts u ks nx s e q [N (pre & r & post & E & Rk & Rt & Ru & Rp) _ _] M Le ->. split.
  - destruct (cleanLoop_suffix o e (ps_tab s)) as [d D]. rewrite D in N. now apply nodup_suffix in N.
  - destruct (cleanLoop_keep o e pre r post) as (pre' & E' & _); [lia| |rewrite E, E'; exists pre', r, post; splits; auto].
    destruct M as [M|M]; [auto|right]. rewrite E in N. apply nodup_suffix in N. cbn [keysOf map] in N. inversion N as [|? ? N1 N2]; subst.
    assert (L : (length (keysOf post) <= length ks)%nat).
    { apply NoDup_incl_length; [exact N2|]. intros y Y. apply in_map_iff in Y as (x & <- & X). destruct (Rp _ X) as [?|?]; [|assumption]. lia. }
    unfold keysOf in L. rewrite map_length in L. rewrite nlen_cons. unfold nlen in *. lia.
Qed.
Lemma kept_reach : forall k ts u ks nx s t s', (co_max o < 0 \/ Z.of_N (nlen ks) < co_max o) -> reachC s t s' -> kept k ts u ks nx s -> (forall x, In x t -> okob k u ks nx x) -> kept k ts u ks nx s'.
Proof.
  intros k ts u ks nx s t s' M H. induction H as [s|e s s1 x t s2 P R IH]; intros K O; [exact K|]. apply IH; [|intros y Y; apply O; now right]. clear IH R.
  specialize (O x (or_introl eq_refl)). pose proof K as [N (pre & r & post & E & Rk & Rt & Ru & Rp) Pd Nx].
  assert (T : forall sys st i q a, cmd_check o sys st i (ps_tab s) = Ok (q, a) -> st - co_life o < u -> NoDup (keysOf q) /\
     exists pre r post, q = pre ++ r :: post /\ cr_key r = k /\ ts <= cr_ts r /\ u <= cr_ref r /\ (forall x, In x post -> co_max o < 0 \/ In (cr_key x) ks)).
  { intros sys st i q a C Lt. destruct (check_inv _ _ _ _ _ _ _ C) as [[->|[-> _]] _].
    - eapply kept_clean; eauto.
    - split; [exact N|]. exists pre, r, post. splits; auto. }
  destruct (step_cases _ _ _ _ _ _ _ _ P) as [(id&sys&st&i&q&[k' ts']&->&C&->&T1&P1&N1)|[(sys&st&i&q&->&C&T1&P1&N1)|[(?&?&?&?&_&_&->)|[(id&u'&[k' ts']&q&->&G&I&T1&P1&N1)|[(id&->&T1&P1&N1)|[_ ->]]]]]]; auto.
  - cbn [okob] in O. destruct (T _ _ _ _ _ C O) as [N' X]. constructor; [now rewrite T1|now rewrite T1| |lia].
    intros id ts2. rewrite P1. intros [[= <- -> ->]|Y] L; [|now apply (Pd id)].
    destruct (check_inv _ _ _ _ _ _ _ C) as (_ & B & _). destruct (B _ _ eq_refl) as (_ & _ & _ & F).
    destruct X as (pre' & r' & post' & -> & Rk' & Rt' & Ru' & Rp'). destruct (cfind k (pre' ++ r' :: post')) as [r2|] eqn:Fe.
    + apply cfind_some in Fe as [F1 F2]. assert (r2 = r') as ->; [|lia]. eapply nodup_keys; eauto; [|congruence]. apply in_or_app. right; now left.
    + apply (cfind_none _ _ r') in Fe; [congruence|]. apply in_or_app. right; now left.
  - cbn [okob] in O. destruct (T _ _ _ _ _ C O) as [N' X]. constructor; [now rewrite T1|now rewrite T1| |lia]. rewrite P1. exact Pd.
  - cbn [okob fst] in O. destruct O as (Ou & Ok1 & Ok2). unfold cmd_insert in I. cbn [fst snd] in I. injection I as I.
    assert (Pd' : forall i ts2, In (i, (k, ts2)) (ps_pend s1) -> (nx <= i)%N -> ts < ts2) by (intros i ts2 Y; rewrite P1 in Y; apply pend_del_in in Y; now apply Pd).
    constructor; [rewrite T1, <- I; now apply insert_nodup| |exact Pd'|lia]. rewrite T1, <- I.
    destruct (names_eqb k' k) eqn:Ek.
    + apply names_eqb_eq in Ek. subst k'. apply pend_get_in in G. specialize (Pd _ _ G (Ok1 eq_refl)).
      exists (filter (fun x => negb (names_eqb (cr_key x) k)) (ps_tab s)), (mkCR k ts' u'), []. splits; auto; cbn [cr_ts cr_ref]; try lia. intros x [].
    + apply names_eqb_neq in Ek. rewrite E, insert_other by congruence.
      eexists _, r, _. splits; [reflexivity|assumption|assumption|assumption|]. intros x X. apply in_app_or in X as [X|[<-|[]]].
      * apply filter_In in X as [X _]. now apply Rp.
      * cbn [cr_key]. now apply Ok2.
  - constructor; rewrite ?T1, ?P1, ?N1; auto; [exists pre, r, post; splits; auto|]. intros i ts2 Y. apply pend_del_in in Y. now apply Pd.
Qed.
Lemma kept_start : forall k ts u ks s id s1, NoDup (keysOf (ps_tab s)) -> p_step _ _ (cmd_check o) cmd_insert (EvDone id u) s = Ok (s1, ObDone id u (k, ts)) ->
  (forall i a, In (i, a) (ps_pend s) -> (i < ps_next s)%N) -> kept k ts u ks (ps_next s) s1.
Proof.
  intros k ts u ks s id s1 N P B. apply step_done in P as (q & _ & G & I & ->). unfold cmd_insert in I. cbn [fst snd] in I. injection I as <-.
  constructor; cbn [ps_tab ps_pend ps_next]; [now apply insert_nodup| | |lia].
  - exists (filter (fun x => negb (names_eqb (cr_key x) k)) (ps_tab s)), (mkCR k ts u), []. splits; auto; cbn [cr_ts cr_ref]; try lia. intros x [].
  - intros i ts2 Y L. apply pend_del_in in Y. apply B in Y. lia.
Qed.
Lemma kept_pass : forall k ts u ks nx s s1 id sys st ts', (co_max o < 0 \/ Z.of_N (nlen ks) < co_max o) -> kept k ts u ks nx s -> st - co_life o < u ->
  forall e, p_step _ _ (cmd_check o) cmd_insert e s = Ok (s1, ObPass id sys st (k, ts')) -> ts < ts'.
Proof.
  intros k ts u ks nx s s1 id sys st ts' M K Lt e P. assert (K1 : kept k ts u ks nx s1).
  { eapply (kept_reach _ _ _ _ _ s [ObPass id sys st (k, ts')] s1); eauto; [econstructor; [exact P|constructor]|]. intros x [<-|[]]. exact Lt. }
  apply step_pass in P as (i & q & _ & _ & -> & ->). destruct K as [_ _ _ Nx]. destruct K1 as [_ _ Pd _]. cbn [ps_pend] in Pd. apply (Pd (ps_next s) ts'); [now left|exact Nx].
Qed.
End Cmd.

Lemma step_done_ev : forall Q A check insert e s s1 id u a, p_step Q A check insert e s = Ok (s1, ObDone id u a) -> e = EvDone id u.
Proof. intros Q A check insert e s s1 id u a H. apply step_done in H as (q & -> & _). reflexivity. Qed.
Lemma init_pend_lt : forall Q A check insert q0 t s, reach Q A check insert (mkPS q0 [] 0%N) t s -> forall i a, In (i, a) (ps_pend s) -> (i < ps_next s)%N.
Proof.
  intros Q A check insert q0 t s H i a X. destruct (reach_pend _ _ _ _ _ _ _ H) as (A1 & A2 & _). destruct (A1 _ _ X) as [[]|(sys & st & Y)]. apply A2 in Y. lia.
Qed.
Lemma order_pair : forall A (t1 : list (iobs A)) x t2 y t3 a b, in_order (t1 ++ x :: t2 ++ y :: t3) -> ob_steady x = Some a -> ob_steady y = Some b -> a <= b.
Proof. intros A t1 x t2 y t3 a b H X Y. eapply H; [reflexivity|exact X|exact Y]. Qed.
Lemma order_in1 : forall A (t1 : list (iobs A)) x t2 y t3 z a b, in_order (t1 ++ x :: t2 ++ y :: t3) -> In z t2 -> ob_steady x = Some a -> ob_steady z = Some b -> a <= b.
Proof.
  intros A t1 x t2 y t3 z a b H I X Z. apply in_split in I as (l1 & l2 & ->). eapply (H t1 x l1 z (l2 ++ y :: t3)); eauto. rewrite <- app_assoc. reflexivity.
Qed.
Lemma order_in2 : forall A (t1 : list (iobs A)) x t2 y t3 z a b, in_order (t1 ++ x :: t2 ++ y :: t3) -> In z t2 -> ob_steady z = Some a -> ob_steady y = Some b -> a <= b.
Proof.
  intros A t1 x t2 y t3 z a b H I X Z. apply in_split in I as (l1 & l2 & ->). eapply (H (t1 ++ x :: l1) z l2 y t3); eauto. rewrite <- !app_assoc. reflexivity.
Qed.

Lemma cmd_increasing : forall o l s t1 t2 t3 id u k ts id' sys st ts',
  cmd_run o l = Ok (s, t1 ++ ObDone id u (k, ts) :: t2 ++ ObPass id' sys st (k, ts') :: t3) ->
  in_order (t1 ++ ObDone id u (k, ts) :: t2 ++ ObPass id' sys st (k, ts') :: t3) ->
  one_by_one ckey k t2 -> few_others ckey k (co_max o) t2 -> st < u + co_life o -> ts < ts'.
Proof.
  intros o l s t1 t2 t3 id u k ts id' sys st ts' H Ord One Few Lt. apply run_reach in H. apply reach_app in H as (m & R1 & R2).
  inversion R2 as [|e ? s1 ? ? ? P R]; subst. apply reach_app in R as (m2 & R3 & R4). inversion R4 as [|e2 ? s2 ? ? ? P2 R5]; subst.
  pose proof (init_pend_lt _ _ _ _ _ _ _ R1) as B. pose proof (tab_nodup _ _ _ _ R1 (NoDup_nil _)) as N.
  pose proof (step_done_ev _ _ _ _ _ _ _ _ _ _ P) as ->.
  assert (ks : exists ks, (co_max (co_init o) < 0 \/ Z.of_N (nlen ks) < co_max (co_init o)) /\
     forall i u' a, In (ObDone i u' a) t2 -> fst a <> k -> co_max (co_init o) < 0 \/ In (fst a) ks).
  { destruct Few as [F|(ks & F1 & F2)]; [exists []; split; auto|]. exists ks. split; [auto|]. intros i u' a I Ne. right. eapply F2; eauto; reflexivity. }
  destruct ks as (ks & M & Fk). pose proof (kept_start _ _ _ _ ks _ _ _ N P B) as K.
  pose proof (step_done _ _ _ _ _ _ _ _ _ _ P) as (q1 & _ & _ & _ & Es1).
  assert (K2 : kept (co_init o) k ts u ks (ps_next m) m2).
  { eapply kept_reach; eauto. intros x X. destruct x as [i sy z a|sy z i|sy z e|i z a|i|]; cbn [okob]; auto.
    - assert (z <= st) by (eapply order_in2; eauto; reflexivity). cbn [co_life co_init]. lia.
    - assert (z <= st) by (eapply order_in2; eauto; reflexivity). cbn [co_life co_init]. lia.
    - splits.
      + eapply order_in1; eauto; reflexivity.
      + intros Ea. destruct (One i z a X) as (sy & z' & a' & Y); [unfold ckey; now rewrite Ea|]. destruct (reach_pend _ _ _ _ _ _ _ R3) as (_ & A2 & _).
        apply A2 in Y. rewrite Es1 in Y. cbn [ps_next] in Y. lia.
      + intros Ne. eapply Fk; eauto. }
  eapply kept_pass; [exact M|exact K2| |exact P2]. cbn [co_life co_init]. lia.
Qed.
Lemma cmd_grace : forall o l s t id sys st k ts, cmd_run o l = Ok (s, t) -> In (ObPass id sys st (k, ts)) t -> sys - Z.max (co_grace o) 0 <= ts <= sys + Z.max (co_grace o) 0.
Proof.
  intros o l s t id sys st k ts H I. apply run_reach in H. apply in_split in I as (t1 & t2 & ->). apply reach_app in H as (m & _ & R). inversion R as [|e ? s1 ? ? ? P R']; subst.
  apply step_pass in P as (i & q & _ & C & _). destruct (check_inv _ _ _ _ _ _ _ C) as (_ & B & _). destruct (B _ _ eq_refl) as (_ & _ & G & _). exact G.
Qed.
Lemma cmd_command : forall o l s t id sys st k ts, cmd_run o l = Ok (s, t) -> In (ObPass id sys st (k, ts)) t -> exists i, In (EvCheck sys st i) l /\ is_command i k ts.
Proof.
  intros o l s t id sys st k ts H. unfold cmd_run in H. revert s t H. generalize (mkPS (Q := cstate) (A := list key * Z) [] [] 0%N) as s0. induction l as [|e l IH]; intros s0 s t H I; cbn [p_run] in H.
  - injection H as <- <-. destruct I.
  - destruct (p_step cstate (list key * Z) (cmd_check (co_init o)) cmd_insert e s0) as [[s1 x]|] eqn:P; cbn [bind fst snd] in H; [|discriminate]. destruct (p_run cstate (list key * Z) (cmd_check (co_init o)) cmd_insert l s1) as [[s2 t2]|] eqn:R; cbn [bind fst snd] in H; [|discriminate].
    injection H as <- <-. destruct I as [->|I].
    + apply step_pass in P as (i & q & -> & C & _). exists i. split; [now left|]. destruct (check_inv _ _ _ _ _ _ _ C) as (_ & B & _). apply (B _ _ eq_refl).
    + destruct (IH _ _ _ R I) as (i & I1 & I2). exists i. split; [now right|exact I2].
Qed.
Lemma cmd_no_replay : forall o l s t1 t2 t3 id u k ts id' sys st ts' off,
  cmd_run o l = Ok (s, t1 ++ ObDone id u (k, ts) :: t2 ++ ObPass id' sys st (k, ts') :: t3) ->
  in_order (t1 ++ ObDone id u (k, ts) :: t2 ++ ObPass id' sys st (k, ts') :: t3) ->
  (forall i sy z a, In (ObPass i sy z a) (t1 ++ ObDone id u (k, ts) :: t2 ++ ObPass id' sys st (k, ts') :: t3) -> sy = z + off) ->
  2 * Z.max (co_grace o) 0 < co_life o -> one_by_one ckey k t2 -> few_others ckey k (co_max o) t2 -> ts < ts'.
Proof.
  intros o l s t1 t2 t3 id u k ts id' sys st ts' off H Ord Off G One Few. destruct (Z_lt_le_dec st (u + co_life o)) as [L|L]; [eapply cmd_increasing; eauto|].
  pose proof H as H2. apply run_reach in H2. replace (t1 ++ ObDone id u (k, ts) :: t2 ++ ObPass id' sys st (k, ts') :: t3) with ((t1 ++ [ObDone id u (k, ts)]) ++ t2 ++ ObPass id' sys st (k, ts') :: t3) in H2 by (rewrite <- app_assoc; reflexivity).
  apply reach_app in H2 as (m & R & _). apply reach_done in R as (sa & za & I); [|reflexivity].
  assert (I1 : In (ObPass id sa za (k, ts)) (t1 ++ ObDone id u (k, ts) :: t2 ++ ObPass id' sys st (k, ts') :: t3)) by (apply in_or_app; now left).
  assert (I2 : In (ObPass id' sys st (k, ts')) (t1 ++ ObDone id u (k, ts) :: t2 ++ ObPass id' sys st (k, ts') :: t3)) by (apply in_or_app; right; right; apply in_or_app; right; now left).
  pose proof (cmd_grace _ _ _ _ _ _ _ _ _ H I1). pose proof (cmd_grace _ _ _ _ _ _ _ _ _ H I2). pose proof (Off _ _ _ _ I1). pose proof (Off _ _ _ _ I2).
  assert (za <= u). { apply in_split in I as (l1 & l2 & ->). eapply (Ord l1 (ObPass id sa za (k, ts)) l2 (ObDone id u (k, ts))); [rewrite <- app_assoc; reflexivity|reflexivity|reflexivity]. }
  lia.
Qed.
(* every record stems from an accepted Interest *)
Lemma tab_done : forall o s t s', reach _ _ (cmd_check o) cmd_insert s t s' -> forall r, In r (ps_tab s') -> In r (ps_tab s) \/ exists id, In (ObDone id (cr_ref r) (cr_key r, cr_ts r)) t.
Proof.
  intros o s t s' H. induction H as [s|e s s1 x t s2 P R IH]; intros r I; [auto|]. destruct (IH _ I) as [J|(id & J)]; [|right; exists id; now right].
  assert (C : forall sys st i q a, cmd_check o sys st i (ps_tab s) = Ok (q, a) -> In r q -> In r (ps_tab s)).
  { intros sys st i q a C X. destruct (check_inv _ _ _ _ _ _ _ C) as [[->|[-> _]] _]; [|exact X].
    destruct (cleanLoop_suffix o (st - co_life o) (ps_tab s)) as [d D]. rewrite D. apply in_or_app; now right. }
  destruct (step_cases _ _ _ _ _ _ _ _ P) as [(i&sys&st&?&?&b&_&X&_&<-&_)|[(?&?&?&?&_&X&<-&_)|[(?&?&?&?&_&_&->)|[(id&u&[k ts]&?&->&_&X&E&_)|[(?&_&Et&_)|[_ ->]]]]]]; eauto.
  - unfold cmd_insert in X. cbn [fst snd] in X. injection X as X. rewrite E, <- X in J. unfold insertNewRecord in J. apply in_app_or in J as [J|[<-|[]]].
    + left. now apply filter_In in J.
    + right. exists id. now left.
  - left. now rewrite <- Et.
Qed.
Lemma i64_small : forall a b, small a -> small b -> i64 (a - b) = Ok (a - b) /\ i64 (a + b) = Ok (a + b).
Proof. intros a b [] []. split; apply i64_ok; lia. Qed.
Lemma small_clamp : forall z, small z -> small (Z.max z 0).
Proof. intros z [A B]. split; lia. Qed.
Lemma cmd_check_ok : forall o sys st i q, small (co_grace o) -> small (co_life o) -> small sys -> small st -> stamp_fits (EvCheck sys st i) ->
  match cmd_check o sys st i q with Ok _ => True | Err e => e = ETlv end.
Proof.
  intros o sys st i q G L A B F. unfold cmd_check. destruct (parseCommand i) as [[|[k ts]]|e] eqn:P; cbn [bind fst snd]; [exact I| |].
  - unfold checkTimestamp, cleanup. destruct (i64_small st (co_life o)) as [-> _]; auto. destruct (i64_small sys (co_grace o)) as [-> ->]; auto. cbn [bind].
    destruct (_ || _); [exact I|]. destruct (cfind _ _) as [r|]; [destruct (ts <=? cr_ts r)|]; exact I.
  - destruct (parseCommand_err _ _ P) as [->|[-> (n & Sn & Nn)]]; [reflexivity|]. cbn [stamp_fits] in F. destruct (F _ Sn) as [t Ht]. now apply Nn in Ht.
Qed.
Lemma cmd_defined : forall o l, small (co_grace o) -> small (co_life o) -> (forall e, In e l -> small_ev e /\ stamp_fits e) ->
  exists s t, cmd_run o l = Ok (s, t) /\ forall sys st e, In (ObThrow sys st e) t -> e = ETlv.
Proof.
  intros o l G L. unfold cmd_run. generalize (mkPS (Q := cstate) (A := list key * Z) [] [] 0%N) as s0. induction l as [|e l IH]; intros s0 H; cbn [p_run]; [eexists _, _; split; [reflexivity|intros ? ? ? []]|].
  assert (P : exists s1 x, p_step _ _ (cmd_check (co_init o)) cmd_insert e s0 = Ok (s1, x) /\ forall sys st e, x = ObThrow sys st e -> e = ETlv).
  { destruct (H e (or_introl eq_refl)) as [Sm F]. destruct e as [sys st i|id u|id]; cbn [p_step].
    - destruct Sm as [S1 S2]. pose proof (cmd_check_ok (co_init o) sys st i (ps_tab s0) (small_clamp _ G) L S1 S2 F) as C. destruct (cmd_check _ _ _ _ _) as [[q [|a]]|e].
      + eexists _, _. split; [reflexivity|discriminate].
      + eexists _, _. split; [reflexivity|discriminate].
      + subst e. cbn [catchable]. eexists _, _. split; [reflexivity|]. intros ? ? ? [= _ _ <-]. reflexivity.
    - destruct (pend_get id (ps_pend s0)); cbn [cmd_insert bind]; eexists _, _; (split; [reflexivity|discriminate]).
    - eexists _, _. split; [reflexivity|discriminate]. }
  destruct P as (s1 & x & P & Hx). rewrite P. cbn [bind fst snd]. destruct (IH s1) as (s2 & t2 & R & Ht); [intros y Y; apply H; now right|]. rewrite R. cbn [bind fst snd].
  eexists _, _. split; [reflexivity|]. intros sys st e' [X|X]; [now apply Hx in X|eauto].
Qed.
Lemma cmd_accept : forall o l s t sys st i k ts, cmd_run o l = Ok (s, t) -> small (co_grace o) -> small (co_life o) -> small sys -> small st ->
  is_command i k ts -> sys - Z.max (co_grace o) 0 <= ts <= sys + Z.max (co_grace o) 0 -> (forall id u ts2, In (ObDone id u (k, ts2)) t -> ts2 < ts) ->
  exists s' id, cmd_run o (l ++ [EvCheck sys st i]) = Ok (s', t ++ [ObPass id sys st (k, ts)]).
Proof.
  intros o l s t sys st i k ts H G L Ss St C Gr Old. assert (E : exists s', p_step _ _ (cmd_check (co_init o)) cmd_insert (EvCheck sys st i) s = Ok (s', ObPass (ps_next s) sys st (k, ts))).
  { cbn [p_step]. assert (F : stamp_fits (EvCheck sys st i)).
    { intros n Hn. inversion C as [si k' v n' t' K Fd I M|nm pre ct cn ci cv si k' n' t' E V K I M]; subst; cbn [stamp] in Hn.
      - destruct Hn as (v' & F' & I'). apply custom_some in Fd as (b & Gb & <-). apply custom_some in F' as (b' & Gb' & <-). rewrite Gb in Gb'. injection Gb' as <-.
        destruct I as [_ ->], I' as [_ ->]. eauto.
      - destruct Hn as (pre' & ct' & cn' & ci' & cv' & E' & I').
        assert (X : ct = ct').
        { destruct (nm_at_back nm pre ct [cn; ci; cv] (-4) E eq_refl) as [A1 _]. destruct (nm_at_back nm pre' ct' [cn'; ci'; cv'] (-4) E' eq_refl) as [A2 _]. congruence. }
        subst ct'. destruct I as [_ ->], I' as [_ ->]. eauto. }
    pose proof (cmd_check_ok (co_init o) sys st i (ps_tab s) (small_clamp _ G) L Ss St F) as Ck. destruct (cmd_check (co_init o) sys st i (ps_tab s)) as [[q [|[k' ts']]]|e] eqn:Ce.
    - exfalso. destruct (check_inv _ _ _ _ _ _ _ Ce) as (_ & _ & B). destruct (B eq_refl _ _ C) as [X|[X|(r & R1 & R2 & R3)]]; cbn [co_grace co_init] in *; try lia.
      apply run_reach in H. destruct (tab_done _ _ _ _ H _ R1) as [[]|(id & D)]. rewrite R2 in D. apply Old in D. lia.
    - destruct (check_inv _ _ _ _ _ _ _ Ce) as (_ & B & _). destruct (B _ _ eq_refl) as (_ & C' & _). apply parseCommand_iff in C, C'. rewrite C in C'. injection C' as <- <-. eauto.
    - subst e. exfalso. unfold cmd_check in Ce. apply parseCommand_iff in C. rewrite C in Ce. cbn [bind fst snd] in Ce. unfold checkTimestamp, cleanup in Ce.
      destruct (i64_small st (co_life o)) as [E1 _]; auto. destruct (i64_small sys (Z.max (co_grace o) 0)) as [E2 E3]; auto using small_clamp. cbn [co_init co_life co_grace] in Ce. rewrite E1, E2, E3 in Ce. cbn [bind] in Ce.
      destruct (_ || _); [discriminate|]. destruct (cfind _ _) as [r|]; [destruct (ts <=? cr_ts r)|]; discriminate. }
  destruct E as [s' E]. exists s', (ps_next s). unfold cmd_run in *. revert H. generalize (mkPS (Q := cstate) (A := list key * Z) [] [] 0%N) as s0. revert t Old. induction l as [|e l IH]; intros t Old s0 H; cbn [app p_run] in *.
  - injection H as -> <-. rewrite E. reflexivity.
  - destruct (p_step cstate (list key * Z) (cmd_check (co_init o)) cmd_insert e s0) as [[s1 x]|] eqn:P; cbn [bind fst snd] in *; [|discriminate]. destruct (p_run cstate (list key * Z) (cmd_check (co_init o)) cmd_insert l s1) as [[s2 t2]|] eqn:R; cbn [bind fst snd] in *; [|discriminate].
    injection H as -> <-. rewrite (IH t2 ltac:(intros; eapply Old; right; eauto) s1 R). reflexivity.
Qed.

(* ---- the size and age of the table ---- *)
From Coq Require Import Sorting.Sorted.
Definition older (a b : crec) : Prop := cr_ref a <= cr_ref b.
Lemma order_tail : forall A (x : iobs A) t, in_order (x :: t) -> in_order t.
Proof. intros A x t H t1 a t2 b t3 u v E. apply (H (x :: t1) a t2 b t3). now rewrite E. Qed.
Lemma ss_suffix : forall d q, StronglySorted older (d ++ q) -> StronglySorted older q.
Proof. induction d as [|x d IH]; cbn [app]; intros q H; [exact H|]. inversion H; auto. Qed.
Lemma ss_filter : forall f q, StronglySorted older q -> StronglySorted older (filter f q).
Proof.
  intros f q H. induction H as [|x q S IH F]; cbn [filter]; [constructor|]. destruct (f x); [|exact IH]. constructor; [exact IH|].
  rewrite Forall_forall in *. intros y Y. apply filter_In in Y as [Y _]. auto.
Qed.
Lemma ss_snoc : forall q r, StronglySorted older q -> (forall x, In x q -> older x r) -> StronglySorted older (q ++ [r]).
Proof.
  intros q r H. induction H as [|x q S IH F]; intros L; cbn [app]; [repeat constructor|]. constructor; [apply IH; intros; apply L; now right|].
  rewrite Forall_forall in *. intros y Y. apply in_app_or in Y as [Y|[<-|[]]]; [auto|]. apply L. now left.
Qed.
Lemma tab_sorted : forall o s t s', reach _ _ (cmd_check o) cmd_insert s t s' -> in_order t -> StronglySorted older (ps_tab s) ->
  (forall r x u, In r (ps_tab s) -> In x t -> ob_steady x = Some u -> cr_ref r <= u) -> StronglySorted older (ps_tab s').
Proof.
  intros o s t s' H. induction H as [s|e s s1 x t s2 P R IH]; intros Ord Ss L; [exact Ss|].
  assert (C : forall sys st i q a, cmd_check o sys st i (ps_tab s) = Ok (q, a) -> StronglySorted older q /\ forall r, In r q -> In r (ps_tab s)).
  { intros sys st i q a C. destruct (check_inv _ _ _ _ _ _ _ C) as [[->|[-> _]] _]; [|auto].
    destruct (cleanLoop_suffix o (st - co_life o) (ps_tab s)) as [d D]. rewrite D in Ss. split; [now apply ss_suffix in Ss|]. intros r I. rewrite D. apply in_or_app; now right. }
  apply IH; [now apply order_tail in Ord| |].
  - destruct (step_cases _ _ _ _ _ _ _ _ P) as [(i&sys&st&?&?&b&_&X&_&<-&_)|[(?&?&?&?&_&X&<-&_)|[(?&?&?&?&_&_&->)|[(id&u&[k ts]&?&->&_&X&E&_)|[(?&_&->&_)|[_ ->]]]]]]; auto.
    + now apply C in X.
    + now apply C in X.
    + unfold cmd_insert in X. cbn [fst snd] in X. injection X as X. rewrite E, <- X. unfold insertNewRecord. apply ss_snoc; [now apply ss_filter|].
      intros y Y. apply filter_In in Y as [Y _]. unfold older. cbn [cr_ref]. eapply L; [exact Y|now left|reflexivity].
  - intros r y v I Y V. assert (Old : In r (ps_tab s) -> cr_ref r <= v) by (intro J; eapply L; [exact J|right; exact Y|exact V]).
    destruct (step_cases _ _ _ _ _ _ _ _ P) as [(i&sys&st&?&?&b&_&X&_&E&_)|[(?&?&?&?&_&X&E&_)|[(?&?&?&?&_&_&->)|[(id&u&[k ts]&?&->&_&X&E&_)|[(?&_&E&_)|[_ ->]]]]]]; auto.
    + rewrite E in I. apply C in X as [_ X]. auto.
    + rewrite E in I. apply C in X as [_ X]. auto.
    + unfold cmd_insert in X. cbn [fst snd] in X. injection X as X. rewrite E, <- X in I. unfold insertNewRecord in I. apply in_app_or in I as [I|[<-|[]]].
      * apply filter_In in I as [I _]. auto.
      * cbn [cr_ref]. apply in_split in Y as (l1 & l2 & ->). eapply (Ord [] (ObDone id u (k, ts)) l1 y l2); [reflexivity|reflexivity|exact V].
    + rewrite E in I. auto.
Qed.
Lemma order_app_l : forall A (a b : list (iobs A)), in_order (a ++ b) -> in_order a.
Proof. intros A a b H t1 x t2 y t3 u v E. apply (H t1 x t2 y (t3 ++ b)). rewrite E, <- !app_assoc. cbn [app]. rewrite <- app_assoc. reflexivity. Qed.
Lemma quiet_tab : forall o l s s' t, p_run _ _ (cmd_check o) cmd_insert l s = Ok (s', t) -> Forall no_check l ->
  (nlen (ps_tab s') <= nlen (ps_tab s) + nlen l)%N /\ forall r, In r (ps_tab s') -> In r (ps_tab s) \/ exists id, In (EvDone id (cr_ref r)) l.
Proof.
  intros o l. induction l as [|e l IH]; intros s s' t H F; cbn [p_run] in H; [injection H as <- _; split; [lia|auto]|].
  destruct (p_step cstate (list key * Z) (cmd_check o) cmd_insert e s) as [[s1 x]|] eqn:P; cbn [bind fst snd] in H; [|discriminate].
  destruct (p_run cstate (list key * Z) (cmd_check o) cmd_insert l s1) as [[s2 t2]|] eqn:R; cbn [bind fst snd] in H; [|discriminate]. injection H as <- _.
  inversion F as [|? ? F1 F2]; subst. destruct (IH _ _ _ R F2) as [L I]. rewrite nlen_cons.
  assert (X : (nlen (ps_tab s1) <= nlen (ps_tab s) + 1)%N /\ forall r, In r (ps_tab s1) -> In r (ps_tab s) \/ exists id, In (EvDone id (cr_ref r)) [e]).
  { destruct e as [sys st i|id u|id]; cbn [p_step] in P; [destruct F1| |injection P as <- _; cbn [ps_tab]; split; [lia|auto]].
    destruct (pend_get id (ps_pend s)) as [[k ts]|]; [|injection P as <- _; split; [lia|auto]]. cbn [cmd_insert bind fst snd] in P. injection P as <- _. cbn [ps_tab].
    unfold insertNewRecord. split.
    - rewrite nlen_app. assert (forall f (q : cstate), (nlen (filter f q) <= nlen q)%N). { intros f q. induction q as [|y q IHq]; cbn [filter]; [lia|]. destruct (f y); rewrite ?nlen_cons; lia. }
      specialize (H (fun r => negb (names_eqb (cr_key r) k)) (ps_tab s)). unfold nlen in *. cbn [length]. lia.
    - intros r J. apply in_app_or in J as [J|[<-|[]]]; [left; now apply filter_In in J|]. right. exists id. now left. }
  destruct X as [X1 X2]. split; [lia|]. intros r J. destruct (I _ J) as [K|(id & K)]; [|right; exists id; now right].
  destruct (X2 _ K) as [K'|(id & [K'|[]])]; [auto|]. right. exists id. now left.
Qed.
Lemma cmd_bound : forall o l1 sys st i l2 s t k ts, cmd_run o (l1 ++ EvCheck sys st i :: l2) = Ok (s, t) -> is_command i k ts -> Forall no_check l2 -> in_order t ->
  NoDup (map cr_key (ps_tab s)) /\ (0 <= co_max o -> Z.of_N (nlen (ps_tab s)) <= co_max o + Z.of_N (nlen l2)) /\
  forall r, In r (ps_tab s) -> st - co_life o < cr_ref r \/ exists id, In (EvDone id (cr_ref r)) l2.
Proof.
  intros o l1 sys st i l2 s t k ts H C F Ord. split; [apply run_reach in H; exact (tab_nodup _ _ _ _ H (NoDup_nil _))|].
  unfold cmd_run in H. apply run_app in H as (m & ta & tb & R1 & R2 & ->). cbn [p_run] in R2.
  destruct (p_step cstate (list key * Z) (cmd_check (co_init o)) cmd_insert (EvCheck sys st i) m) as [[s1 x]|] eqn:P; cbn [bind fst snd] in R2; [|discriminate].
  destruct (p_run cstate (list key * Z) (cmd_check (co_init o)) cmd_insert l2 s1) as [[s2 t2]|] eqn:R; cbn [bind fst snd] in R2; [|discriminate]. injection R2 as <- <-.
  apply order_app_l in Ord. pose proof (tab_sorted _ _ _ _ (run_reach _ _ _ _ _ _ _ _ R1) Ord (SSorted_nil _) ltac:(intros ? ? ? [])) as Ss.
  assert (T : ps_tab s1 = cleanLoop (co_init o) (st - co_life o) (ps_tab m)).
  { cbn [p_step] in P. destruct (cmd_check (co_init o) sys st i (ps_tab m)) as [[q a]|e] eqn:Ce.
    - destruct (check_inv _ _ _ _ _ _ _ Ce) as [[->|[_ [_ X]]] _]; [|now apply X in C]. destruct a; injection P as <- _; reflexivity.
    - exfalso. unfold cmd_check in Ce. apply parseCommand_iff in C. rewrite C in Ce. cbn [bind fst snd] in Ce. unfold checkTimestamp, cleanup in Ce.
      assert (e = EUb); [|subst e; discriminate].
      destruct (i64 (st - co_life (co_init o))) eqn:E1; cbn [bind] in Ce; [|apply i64_err in E1; congruence].
      destruct (i64 (sys - co_grace (co_init o))) eqn:E2; cbn [bind] in Ce; [|apply i64_err in E2; congruence].
      destruct (i64 (sys + co_grace (co_init o))) eqn:E3; cbn [bind] in Ce; [|apply i64_err in E3; congruence].
      destruct (_ || _); [discriminate|]. destruct (cfind _ _) as [r|]; [destruct (ts <=? cr_ts r)|]; discriminate. }
  destruct (quiet_tab _ _ _ _ _ R F) as [L I]. pose proof (cleanLoop_front (co_init o) (st - co_life o) (ps_tab m)) as Fr. rewrite <- T in Fr.
  destruct (cleanLoop_suffix (co_init o) (st - co_life o) (ps_tab m)) as [d D]. rewrite D, <- T in Ss. apply ss_suffix in Ss. split.
  - intro M. destruct (ps_tab s1) as [|r q]; [cbn in L|]; cbn [co_max co_init] in Fr; unfold nlen in *; cbn [length] in *; lia.
  - intros r J. destruct (I _ J) as [K|K]; [left|now right]. destruct (ps_tab s1) as [|r0 q]; [destruct K|]. destruct Fr as [Fr _]. destruct K as [->|K]; [exact Fr|].
    inversion Ss as [|? ? _ Fa]; subst. rewrite Forall_forall in Fa. specialize (Fa _ K). unfold older in Fa. lia.
Qed.

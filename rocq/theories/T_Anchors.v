(* C67: the trust anchors of a validator: static groups, and dynamic groups reloaded from files.  Specification: S_Anchors, first_by_name (S_CertCache). *)
From Coq Require Import List ZArith Lia ZifyBool ZifyNat ZifyN String.
From Verif Require Import Base BaseLemmas S_Name P_NameOrder M_Ims S_Ims P_Ims M_CertCache S_CertCache P_CertCache M_Anchors S_Anchors P_Anchors.
Import ListNotations.
Open Scope list_scope.
Open Scope Z_scope.

(* Nothing but trust anchors is found: a certificate found by name was loaded (inserted, or in a file of a dynamic group when the group was reloaded)
   since the last clear(); and its name is in a static group from which it was not removed, or was in the files of a dynamic group at a reload less than
   one refresh period before the lookup. *)
Theorem C67_sound : forall l a outs now d ord n a' c, Forall clocked (l ++ [TAFindN now d ord n]) -> ta_run l ta_empty = Ok (a, outs) -> ta_findName now d ord n a = Ok (a', Some c) ->
  is_prefix n (ct_name c) /\ let h := TAFindN now d ord n :: rev l in
  source h c /\ ((exists i, static_in h i (ct_name c)) \/ exists i, dynamic_in h now i (ct_name c)).
Proof.
  intros l a outs now d ord n a' c F R H. apply Forall_app in F as [F _]. pose proof (run_ainv l [] ta_empty a outs F empty_ainv R) as Inv. rewrite app_nil_r in Inv. unfold ta_findName in H.
  destruct (ta_refresh now d ord a) as [a1|] eqn:Rf; cbn [bind] in H; [|discriminate]. assert (E : match alower n (ta_certs a1) with [] => None | c :: _ => if prefixb n (ct_name c) then Some c else None end = Some c) by congruence. clear H.
  destruct (refresh_all (TAFindN now d ord n :: rev l) (TAFindN now d ord n) now d ord a a1) as [Inv1 Ex]; [apply ainv_mono; auto; discriminate|now left|cbn; auto|exact Rf|].
  pose proof (afirst_spec n _ (ai_sorted _ _ Inv1)) as S. rewrite E in S. destruct S as [[P I] _]. split; [exact P|]. exact (held_in _ now a1 Inv1 Ex c I).
Qed.
Print Assumptions C67_sound.
(* by Interest *)
Theorem C67_sound_interest : forall l a outs now d ord q a' c, Forall clocked (l ++ [TAFindI now d ord q]) -> ta_run l ta_empty = Ok (a, outs) -> ta_findInterest now d ord q a = Ok (a', Some c) ->
  is_prefix (q_name q) (ct_name c) /\ q_accepts q (ct_pk c) /\ let h := TAFindI now d ord q :: rev l in
  source h c /\ ((exists i, static_in h i (ct_name c)) \/ exists i, dynamic_in h now i (ct_name c)).
Proof.
  intros l a outs now d ord q a' c F R H. apply Forall_app in F as [F _]. pose proof (run_ainv l [] ta_empty a outs F empty_ainv R) as Inv. rewrite app_nil_r in Inv. unfold ta_findInterest in H.
  destruct (ta_refresh now d ord a) as [a1|] eqn:Rf; cbn [bind] in H; [|discriminate]. assert (E : ascan q (alower (q_name q) (ta_certs a1)) = Some c) by congruence. clear H.
  destruct (refresh_all (TAFindI now d ord q :: rev l) (TAFindI now d ord q) now d ord a a1) as [Inv1 Ex]; [apply ainv_mono; auto; discriminate|now left|cbn; auto|exact Rf|].
  pose proof (ascan_spec q _ (ai_sorted _ _ Inv1)) as S. rewrite E in S. destruct S as [(P & A & I) _]. split; [exact P|]. split; [exact A|]. exact (held_in _ now a1 Inv1 Ex c I).
Qed.
Print Assumptions C67_sound_interest.

(* A static anchor stays.  If no other operation brings in or removes a certificate of its name (before it was inserted, a clear() may), the anchor is
   found by its name and by every Interest for its name that it satisfies, whatever else is inserted, removed, or reloaded meanwhile. *)
Theorem C67_static : forall l1 i c l2 a1 a2 outs1 outs2 now d ord, Forall clocked (l1 ++ TAIns i c :: l2 ++ [TAFindN now d ord (ct_name c)]) ->
  (forall o, In o l1 -> o = TAClear \/ ~ touches (ct_name c) o) -> (forall o, In o l2 -> ~ touches (ct_name c) o) -> (forall path, ~ on_disk d path (ct_name c)) ->
  ta_run (l1 ++ [TAIns i c]) ta_empty = Ok (a1, outs1 ++ [TOut None]) -> ta_run l2 a1 = Ok (a2, outs2) ->
  (forall a3 r, ta_findName now d ord (ct_name c) a2 = Ok (a3, r) -> r = Some c) /\
  (forall q a3 r, q_name q = ct_name c -> q_accepts q (ct_pk c) -> ta_findInterest now d ord q a2 = Ok (a3, r) -> r = Some c).
Proof.
  intros l1 i c l2 a1 a2 outs1 outs2 now d ord F H1 H2 Nd R1 R2. apply Forall_app in F as [F1 F]. inversion F as [|? ? Fi F2]; subst. apply Forall_app in F2 as [F2 _].
  assert (Split : forall l a b xs, ta_run (l ++ [TAIns i c]) a = Ok (b, xs ++ [TOut None]) -> exists m ys, ta_run l a = Ok (m, ys) /\ ta_step (TAIns i c) m = Ok (b, TOut None)).
  { induction l as [|o l IH]; intros a b xs R; cbn [app ta_run] in R.
    - destruct (ta_step (TAIns i c) a) as [[m x]|] eqn:St; cbn [bind fst snd] in R; [|discriminate]. exists a, []. split; [reflexivity|]. rewrite St. assert (Q : [x] = xs ++ [TOut None]) by congruence. assert (Q2 : m = b) by congruence. destruct xs as [|y xs]; [|destruct xs; discriminate]. injection Q as ->. congruence.
    - destruct (ta_step o a) as [[m x]|] eqn:St; cbn [bind fst snd] in R; [|discriminate]. destruct (ta_run (l ++ [TAIns i c]) m) as [[b' xs']|] eqn:R'; cbn [bind fst snd] in R; [|discriminate].
      assert (Q : x :: xs' = xs ++ [TOut None]) by congruence. assert (Q2 : b' = b) by congruence. subst b'. destruct xs as [|y xs].
      + injection Q as -> ->. exfalso. destruct l as [|o' l]; cbn [app ta_run] in R'; destruct (ta_step _ m) as [[m' x']|]; cbn [bind] in R'; try discriminate. destruct (ta_run (l ++ [TAIns i c]) (fst (m', x'))) as [[]|]; cbn [bind] in R'; discriminate.
      + injection Q as -> ->. destruct (IH m b xs R') as (m2 & ys & E1 & E2). exists m2, (y :: ys). cbn [ta_run]. rewrite St. cbn [bind fst snd]. rewrite E1. cbn [bind fst snd]. auto. }
  destruct (Split l1 ta_empty a1 outs1 R1) as (m & ys & E1 & E2). pose proof (run_ainv l1 [] ta_empty m ys F1 empty_ainv E1) as Inv. rewrite app_nil_r in Inv.
  assert (K1 : kept c a1) by (eapply insert_kept; [exact Inv| |exact E2]; intros o I; apply H1; now apply in_rev). pose proof (run_kept l2 c a1 a2 outs2 F2 H2 K1 R2) as K2.
  assert (Uniq : forall l e, csorted l -> In c l -> In e l -> ct_name e = ct_name c -> e = c).
  { induction l as [|x l IH]; intros e S Ic Ie Q; [destruct Ic|]. inversion S as [|? ? S1 S2]; subst. rewrite Forall_forall in S2. destruct Ic as [->|Ic], Ie as [->|Ie]; auto.
    - specialize (S2 _ Ie). unfold clt in S2. rewrite Q in S2. contradiction (names_lt_irr _ S2).
    - specialize (S2 _ Ic). unfold clt in S2. rewrite Q in S2. contradiction (names_lt_irr _ S2). }
  split.
  - intros a3 r H. unfold ta_findName, ta_refresh in H. destruct (refresh_ids _ _ _ _) as [a4|] eqn:R; cbn [bind] in H; [|discriminate]. pose proof (refresh_kept _ c now d a2 a4 Nd K2 R) as K. assert (E : match alower (ct_name c) (ta_certs a4) with [] => None | c0 :: _ => if prefixb (ct_name c) (ct_name c0) then Some c0 else None end = r) by congruence.
    pose proof (afirst_spec (ct_name c) _ (kp_sorted _ _ K)) as S. rewrite E in S. assert (Pc : is_prefix (ct_name c) (ct_name c)) by (exists []; now rewrite app_nil_r). destruct r as [e|]; [|contradiction (S c); split; [exact Pc|apply K]]. destruct S as [[P I] Least]. f_equal.
    destruct (Least c) as [<-|L]; [split; [exact Pc|apply K]|reflexivity|]. apply (Uniq (ta_certs a4)); [apply K|apply K|exact I|]. apply prefix_ge in P. destruct P as [P|P]; [congruence|]. contradiction (names_lt_irr _ (names_lt_trans _ _ _ P L)).
  - intros q a3 r Qn Qa H. unfold ta_findInterest, ta_refresh in H. destruct (refresh_ids _ _ _ _) as [a4|] eqn:R; cbn [bind] in H; [|discriminate]. pose proof (refresh_kept _ c now d a2 a4 Nd K2 R) as K. assert (E : ascan q (alower (q_name q) (ta_certs a4)) = r) by congruence.
    pose proof (ascan_spec q _ (kp_sorted _ _ K)) as S. rewrite E, Qn in S. assert (Pc : is_prefix (ct_name c) (ct_name c)) by (exists []; now rewrite app_nil_r). destruct r as [e|]; [|contradiction (S c); split; [exact Pc|split; [exact Qa|apply K]]]. destruct S as [(P & A & I) Least]. f_equal.
    destruct (Least c) as [<-|L]; [split; [exact Pc|split; [exact Qa|apply K]]|reflexivity|]. apply (Uniq (ta_certs a4)); [apply K|apply K|exact I|]. apply prefix_ge in P. destruct P as [P|P]; [congruence|]. contradiction (names_lt_irr _ (names_lt_trans _ _ _ P L)).
Qed.
Print Assumptions C67_static.

(* A dynamic group follows its files: with one dynamic group and no other anchors, a lookup made at least one refresh period after every earlier call
   finds a certificate exactly if there is one whose name matches in the files at that time. *)
Theorem C67_reload : forall t d0 i path period l a outs now d ord n a' r, Forall clocked (TADyn t d0 i path period :: l) -> Forall is_find l ->
  ta_run (TADyn t d0 i path period :: l) ta_empty = Ok (a, TOut None :: outs) -> (forall o u e, In o (TADyn t d0 i path period :: l) -> reads o u e -> u + period <= now) ->
  ta_findName now d ord n a = Ok (a', r) ->
  match r with Some c => is_prefix n (ct_name c) /\ on_disk d path (ct_name c) | None => forall m, is_prefix n m -> ~ on_disk d path m end.
Proof.
  intros t d0 i path period l a outs now d ord n a' r F Fi R Late H. inversion F as [|? ? Fd F2]; subst. assert (Lt : 0 <= t) by (apply (Fd t d0); cbn; auto).
  assert (A : 0 < period /\ exists u e, solo path period u e a /\ u <= now).
  { cbn [ta_run ta_step ta_insertDyn ta_groups ta_empty existsb] in R. destruct (Z.leb_spec period 0) as [L|L].
    - cbn [bind fst snd] in R. destruct (ta_run l _) as [[]|]; cbn [bind fst snd] in R; discriminate.
    - split; [exact L|]. destruct (tg_refresh t d0 _ _) as [[g' l']|] eqn:T; cbn [bind fst snd] in R; [|discriminate].
      destruct (reload_spec t d0 (mkTG i [] (Some (mkTD path period 0))) _ (mkTD path period 0) _ _ ltac:(constructor) eq_refl Lt T) as (Ei & Ey & S' & Nm & Fr & Keep & Gone & New). cbn [tg_id td_path td_period tg_names ta_certs] in *.
      assert (S0 : solo path period (t + period) d0 (mkTA [g'] l')).
      { constructor; cbn [ta_groups ta_certs]; [|exact S'|].
        - destruct g' as [i' ns' y']. cbn [tg_id tg_dyn tg_names] in *. subst. eauto.
        - intro m. split; [|auto]. intros (c & Ic & <-). destruct (Fr _ Ic) as [[]|X]. exists c. auto. }
      destruct (ta_run l (mkTA [g'] l')) as [[a1 xs]|] eqn:Rl; cbn [bind fst snd] in R; [|discriminate]. assert (a1 = a) by congruence. subst a1.
      assert (Hu : t + period <= now) by (apply (Late (TADyn t d0 i path period) t d0); [now left|cbn; auto]). assert (Late2 : forall o u e, In o l -> reads o u e -> u + period <= now) by (intros o u e I; apply Late; now right).
      clear - L S0 Rl Hu Late2 Fi. remember (mkTA [g'] l') as b. clear Heqb g' l'. generalize dependent (t + period). revert d0 b xs Rl. induction l as [|o l IH]; intros d0 b xs Rl z S0 Hz.
      + cbn [ta_run] in Rl. assert (b = a) by congruence. subst b. eauto.
      + inversion Fi as [|? ? Fo Fl]; subst. cbn [ta_run] in Rl. destruct (ta_step o b) as [[b1 x]|] eqn:St; cbn [bind fst snd] in Rl; [|discriminate]. destruct (ta_run l b1) as [[b2 xs']|] eqn:R2; cbn [bind fst snd] in Rl; [|discriminate]. assert (b2 = a) by congruence. subst b2.
        assert (Q : exists u e ord, reads o u e /\ ta_refresh u e ord b = Ok b1).
        { destruct o as [| | | |u e ord n|u e ord q]; try contradiction; cbn [ta_step] in St; [unfold ta_findName in St|unfold ta_findInterest in St]; destruct (ta_refresh u e ord b) as [b3|] eqn:Rf; cbn [bind fst snd] in St; try discriminate; exists u, e, ord; (split; [cbn; auto|]); rewrite Rf; congruence. }
        destruct Q as (u & e & ord & Rd & Rf). destruct (solo_refresh _ _ _ _ _ _ _ _ _ S0 L Rf) as [Ea La]. assert (Lu : u + period <= now) by (apply (Late2 o u e); [now left|exact Rd]).
        assert (Late3 : forall o u e, In o l -> reads o u e -> u + period <= now) by (intros ? ? ? I; apply Late2; now right).
        destruct (Z.lt_ge_cases u z) as [Lz|Lz]; [exact (IH Fl Late3 _ _ _ R2 _ (Ea Lz) Hz)|exact (IH Fl Late3 _ _ _ R2 _ (La Lz) Lu)]. }
  destruct A as (Lp & u & e & S0 & Hu). unfold ta_findName in H. destruct (ta_refresh now d ord a) as [a1|] eqn:Rf; cbn [bind] in H; [|discriminate]. destruct (solo_refresh _ _ _ _ _ _ _ _ _ S0 Lp Rf) as [_ La]. specialize (La Hu). destruct La as [_ Sc Nm].
  assert (E : match alower n (ta_certs a1) with [] => None | c0 :: _ => if prefixb n (ct_name c0) then Some c0 else None end = r) by congruence. pose proof (afirst_spec n _ Sc) as S. rewrite E in S. destruct r as [c|].
  - destruct S as [[P I] _]. split; [exact P|]. apply Nm. eauto.
  - intros m P X. apply Nm in X. destruct X as (c & I & <-). exact (S c (conj P I)).
Qed.
Print Assumptions C67_reload.

(* Nothing is undefined, and every call returns, as long as the clock readings and refresh periods are not astronomically large; the only errors are
   those of inserting into a dynamic group, an existing group id, a non-positive period, or a group that does not exist. *)
Theorem C67_defined : forall p l, Forall (fits p) l -> exists a outs, ta_run l ta_empty = Ok (a, outs) /\ length outs = length l.
Proof. intros p l F. destruct (run_ok p l ta_empty F) as (a & outs & E & _ & Ln); [intros g y []|]. eauto. Qed.
Print Assumptions C67_defined.

(* An example: a static anchor /a, and a directory holding first /b/1 and /b/2, then /b/2 and /b/3. *)
Local Definition k1 (x : String.string) : key := (8%N, str x).
Local Definition ac (n : list key) (dg : N) : cert := mkCert (mkPkt n [nb dg]) (Some (0, 0)).
Local Definition ca : cert := ac [k1 "a"] 0.
Local Definition cb (x : String.string) : cert := ac [k1 "b"; k1 x] 1.
Local Definition dir0 : disk := fun p => if (p =? 5)%N then [cb "2"; cb "1"] else [].
Local Definition dir1 : disk := fun p => if (p =? 5)%N then [cb "2"; cb "3"] else [].
Example C67_ex : exists a, ta_run [TAIns 1 ca; TADyn 100 dir0 2 5 10; TAFindN 109 dir1 [2%N] [k1 "b"]; TAFindN 110 dir1 [2%N; 1%N] [k1 "b"]; TAFindN 111 dir0 [] [k1 "a"];
    TAFindN 111 dir0 [] [k1 "b"; k1 "1"]; TAIns 2 ca; TADyn 111 dir0 1 5 10; TADyn 111 dir0 3 5 0] ta_empty =
  Ok (a, [TOut None; TOut None; TFound (Some (cb "1")); TFound (Some (cb "2")); TFound (Some ca); TFound None; TOut (Some ERuntime); TOut (Some ERuntime); TOut (Some ERuntime)]) /\ ta_size a = 3%N.
Proof. eexists. split; vm_compute; reflexivity. Qed.
Example C67_ex_hyp : Forall (fits 1000) [TAIns 1 ca; TADyn 100 dir0 2 5 10; TAFindN 109 dir1 [2%N] [k1 "b"]] /\ (forall path, ~ on_disk dir1 path (ct_name ca)) /\ ~ touches (ct_name ca) (TADyn 100 dir0 2 5 10).
Proof.
  assert (D1 : forall path, ~ on_disk dir1 path (ct_name ca)) by (intros path (c & I & E); unfold dir1 in I; destruct (path =? 5)%N; [destruct I as [<-|[<-|[]]]; discriminate E|destruct I]).
  assert (D0 : forall path, ~ on_disk dir0 path (ct_name ca)) by (intros path (c & I & E); unfold dir0 in I; destruct (path =? 5)%N; [destruct I as [<-|[<-|[]]]; discriminate E|destruct I]).
  splits; auto.
  - apply Forall_cons; [split; [intros t e []|exact I]|]. apply Forall_cons; [split; [intros t e [-> _]; lia|lia]|]. apply Forall_cons; [split; [intros t e [-> _]; lia|exact I]|]. apply Forall_nil.
  - intros (t & e & path & [-> ->] & X). exact (D0 _ X).
Qed.

(* What does not hold: an anchor that belongs to two groups is lost for both when one of them gives it up ... *)
Theorem C67_shared_refuted : exists l a outs, ta_run l ta_empty = Ok (a, outs ++ [TFound None]) /\ static_in (rev l) 2 (ct_name ca) /\ last l TAClear = TAFindN 0 dir0 [] (ct_name ca).
Proof.
  exists [TAIns 1 ca; TAIns 2 ca; TARem 1 (ct_name ca); TAFindN 0 dir0 [] (ct_name ca)]. eexists. exists [TOut None; TOut None; TOut None]. splits; [vm_compute; reflexivity| |reflexivity].
  exists [TAFindN 0 dir0 [] (ct_name ca); TARem 1 (ct_name ca)], ca, [TAIns 1 ca]. splits; try reflexivity. intros [X|[X|[]]]; discriminate X.
Qed.
Print Assumptions C67_shared_refuted.
(* ... and inserting it again in the group that still lists it has no effect *)
Theorem C67_reinsert_refuted : exists l a outs, ta_run (l ++ [TAIns 2 ca; TAFindN 0 dir0 [] (ct_name ca)]) ta_empty = Ok (a, outs ++ [TOut None; TFound None]).
Proof. exists [TAIns 1 ca; TAIns 2 ca; TARem 1 (ct_name ca)]. eexists. exists [TOut None; TOut None; TOut None]. vm_compute. reflexivity. Qed.
Print Assumptions C67_reinsert_refuted.
(* the same when a file disappears from the directory of a dynamic group: a static anchor is dropped *)
Theorem C67_reload_drops_static_refuted : exists l a outs c, ta_run l ta_empty = Ok (a, outs ++ [TFound None]) /\ static_in (rev l) 1 (ct_name c) /\ last l TAClear = TAFindN 110 dir1 [] (ct_name c).
Proof.
  exists [TAIns 1 (cb "1"); TADyn 100 dir0 2 5 10; TAFindN 110 dir1 [] (ct_name (cb "1"))]. eexists. exists [TOut None; TOut None], (cb "1"). splits; [vm_compute; reflexivity| |reflexivity].
  exists [TAFindN 110 dir1 [] (ct_name (cb "1")); TADyn 100 dir0 2 5 10], (cb "1"), []. splits; try reflexivity. intros [X|[X|[]]]; discriminate X.
Qed.
Print Assumptions C67_reload_drops_static_refuted.
(* a file replaced by another certificate of the same name is not picked up by a reload *)
Local Definition dirx (dg : N) : disk := fun p => if (p =? 5)%N then [ac [k1 "b"] dg] else [].
Theorem C67_replaced_refuted : exists l a outs c, ta_run l ta_empty = Ok (a, outs ++ [TFound (Some c)]) /\ last l TAClear = TAFindN 1000 (dirx 2) [] [k1 "b"] /\ ~ In c (dirx 2 5%N).
Proof. exists [TADyn 100 (dirx 1) 2 5 10; TAFindN 1000 (dirx 2) [] [k1 "b"]]. eexists. exists [TOut None], (ac [k1 "b"] 1). splits; [vm_compute; reflexivity|reflexivity|]. intros [X|[]]. discriminate X. Qed.
Print Assumptions C67_replaced_refuted.

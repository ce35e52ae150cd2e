(* Proofs for C67 *)
From Coq Require Import List ZArith Lia ZifyBool ZifyNat ZifyN Sorting.Sorted.
From Verif Require Import Base BaseLemmas M_Name S_Name P_NameOrder M_Ims S_Ims P_Ims M_CertCache S_CertCache P_CertCache M_Anchors S_Anchors.
Import ListNotations.
Open Scope Z_scope.

Definition clt (a b : cert) : Prop := names_lt (ct_name a) (ct_name b).
Definition csorted (l : list cert) : Prop := StronglySorted clt l.
Lemma add_in : forall c l x, csorted l -> In x (acert_add c l) <-> In x l \/ (x = c /\ forall y, In y l -> ct_name y <> ct_name c).
Proof.
  intros c. induction l as [|y l IH]; intros x S; cbn [acert_add]; [cbn; split; [intros [<-|[]]; right; split; [reflexivity|intros ? []]|intros [[]|[-> _]]; auto]|]. inversion S as [|? ? S1 S2]; subst. rewrite Forall_forall in S2.
  destruct (names_eqb (ct_name c) (ct_name y)) eqn:E.
  - apply names_eqb_eq in E. split; [auto|]. intros [H|[-> H]]; [auto|]. elim (H y (or_introl eq_refl)). auto.
  - apply names_eqb_neq in E. destruct (names_ltb (ct_name c) (ct_name y)) eqn:L.
    + apply names_ltb_lt in L. cbn [In]. split; [|intros [H|[-> _]]; auto]. intros [<-|H]; [|auto]. right. split; [reflexivity|]. intros z [<-|Z] Q; [congruence|].
      specialize (S2 z Z). unfold clt in S2. rewrite Q in S2. exact (names_lt_irr _ (names_lt_trans _ _ _ L S2)).
    + cbn [In]. rewrite (IH x S1). split.
      * intros [<-|[H|[-> H]]]; auto. right. split; [reflexivity|]. intros z [<-|Z]; auto.
      * intros [[<-|H]|[-> H]]; auto. right; right. split; [reflexivity|]. intros z Z. apply H. now right.
Qed.
Lemma add_sorted : forall c l, csorted l -> csorted (acert_add c l).
Proof.
  intros c. induction l as [|y l IH]; intro S; cbn [acert_add]; [repeat constructor|]. inversion S as [|? ? S1 S2]; subst. destruct (names_eqb _ _) eqn:E; [exact S|]. apply names_eqb_neq in E.
  destruct (names_ltb (ct_name c) (ct_name y)) eqn:L.
  - apply names_ltb_lt in L. constructor; [exact S|]. rewrite Forall_forall in S2. apply Forall_forall. intros z [<-|Z]; [exact L|]. eapply names_lt_trans; [exact L|apply S2; exact Z].
  - constructor; [exact (IH S1)|]. rewrite Forall_forall in S2. apply Forall_forall. intros z Z. apply add_in in Z; [|exact S1]. destruct Z as [Z|[-> _]]; [auto|]. unfold clt. destruct (names_lt_tri (ct_name c) (ct_name y)) as [T|[T|T]]; [|congruence|exact T].
    apply names_ltb_lt in T. congruence.
Qed.
Lemma remove_in : forall n l x, In x (acert_remove n l) <-> In x l /\ ct_name x <> n.
Proof. intros n l x. unfold acert_remove. rewrite filter_In. rewrite Bool.negb_true_iff. now rewrite names_eqb_neq. Qed.
Lemma remove_sorted : forall n l, csorted l -> csorted (acert_remove n l).
Proof.
  intros n. induction l as [|y l IH]; intro S; cbn [acert_remove filter]; [constructor|]. inversion S as [|? ? S1 S2]; subst. destruct (negb _); [|exact (IH S1)]. constructor; [apply IH; exact S1|].
  rewrite Forall_forall in S2. apply Forall_forall. intros z Z. apply remove_in in Z. apply S2. apply Z.
Qed.
Lemma has_iff : forall n l, has_name n l = true <-> In n l.
Proof. intros n l. unfold has_name. rewrite existsb_exists. split; [intros (x & I & E); apply names_eqb_eq in E; now subst|]. intro I. exists n. split; [exact I|apply names_eqb_refl]. Qed.
Lemma del_in : forall n l x, In x (del_name n l) <-> In x l /\ x <> n.
Proof. intros n l x. unfold del_name. rewrite filter_In, Bool.negb_true_iff. now rewrite names_eqb_neq. Qed.

(* loading *)
Lemma load_spec : forall cs names old l names' old' l', csorted l -> load_certs cs names old l = (names', old', l') ->
  csorted l' /\ (forall n, In n names' <-> In n names \/ exists c, In c cs /\ ct_name c = n) /\
  (forall n, In n old' -> In n old) /\ (forall n, In n old -> In n names -> (In n old' <-> forall c, In c cs -> ct_name c <> n)) /\
  (forall x, In x l -> In x l') /\ (forall x, In x l' -> In x l \/ In x cs) /\
  (forall c, In c cs -> ~ In (ct_name c) names -> exists x, In x l' /\ ct_name x = ct_name c).
Proof.
  induction cs as [|c cs IH]; intros names old l names' old' l' S H; cbn [load_certs] in H.
  - injection H as <- <- <-. splits; auto; try (intros; tauto).
    + intro n. split; [auto|]. intros [H|(c & [] & _)]. exact H.
    + intros c [].
  - destruct (has_name (ct_name c) names) eqn:Hn.
    + apply has_iff in Hn. destruct (IH _ _ _ _ _ _ S H) as (A & B & C & D & E & F & G). splits; auto.
      * intro n. rewrite B. split; [intros [K|(x & X & K)]; [auto|right; exists x; split; [right; exact X|exact K]]|]. intros [K|(x & [<-|X] & K)]; [auto|left; congruence|right; eauto].
      * intros n K. apply C in K. apply del_in in K. apply K.
      * intros n K1 K2. destruct (list_eq_dec (fun a b : key => ltac:(decide equality; [apply (list_eq_dec Byte.byte_eq_dec)|apply N.eq_dec])) n (ct_name c)) as [->|Ne].
        -- split; [intro K; apply C in K; apply del_in in K; destruct K as [_ K]; now contradiction K|intro K; exfalso; apply (K c); [now left|reflexivity]].
        -- rewrite D; [|apply del_in; auto|exact K2]. split; [intros K x [<-|X]; [congruence|auto]|intros K x X; apply K; now right].
      * intros x X. destruct (F x X); auto. right. now right.
      * intros x [<-|X] K; [contradiction|]. eapply G; eauto.
    + assert (Hn' : ~ In (ct_name c) names) by (intro K; apply has_iff in K; congruence). destruct (IH _ _ _ _ _ _ (add_sorted c l S) H) as (A & B & C & D & E & F & G). splits; auto.
      * intro n. rewrite B. cbn [In]. split; [intros [[K|K]|(x & X & K)]; [right; exists c; split; [now left|exact K]|auto|right; exists x; split; [right; exact X|exact K]]|]. intros [K|(x & [<-|X] & K)]; [auto|left; left; congruence|right; eauto].
      * intros n K1 K2. rewrite D; [|exact K1|now right]. split; [intros K x [<-|X]; [intros <-; contradiction|auto]|intros K x X; apply K; now right].
      * intros x X. apply E. apply add_in; [exact S|now left].
      * intros x X. destruct (F x X) as [Y|Y]; [|right; now right]. apply add_in in Y; [|exact S]. destruct Y as [Y|[-> _]]; [auto|right; now left].
      * intros x [<-|X] K.
        -- assert (Y : exists y, In y (acert_add c l) /\ ct_name y = ct_name c).
           { destruct (existsb (fun z => names_eqb (ct_name z) (ct_name c)) l) eqn:Ex.
             - apply existsb_exists in Ex as (z & Z & Ez). apply names_eqb_eq in Ez. exists z. split; [apply add_in; auto|exact Ez].
             - exists c. split; [|reflexivity]. apply add_in; [exact S|]. right. split; [reflexivity|]. intros y Y Q. assert (X : existsb (fun z => names_eqb (ct_name z) (ct_name c)) l = true) by (apply existsb_exists; exists y; split; [exact Y|rewrite Q; apply names_eqb_refl]). congruence. }
           destruct Y as (y & Y & Q). exists y. auto.
        -- destruct (names_eqb (ct_name x) (ct_name c)) eqn:Q.
           ++ apply names_eqb_eq in Q. assert (Y : exists y, In y (acert_add c l) /\ ct_name y = ct_name c).
              { destruct (existsb (fun z => names_eqb (ct_name z) (ct_name c)) l) eqn:Ex.
                - apply existsb_exists in Ex as (z & Z & Ez). apply names_eqb_eq in Ez. exists z. split; [apply add_in; auto|exact Ez].
                - exists c. split; [|reflexivity]. apply add_in; [exact S|]. right. split; [reflexivity|]. intros y Y Q'. assert (X' : existsb (fun z => names_eqb (ct_name z) (ct_name c)) l = true) by (apply existsb_exists; exists y; split; [exact Y|rewrite Q'; apply names_eqb_refl]). congruence. }
              destruct Y as (y & Y & Q'). exists y. rewrite Q. auto.
           ++ apply names_eqb_neq in Q. eapply G; eauto. intros [Z|Z]; [congruence|contradiction].
Qed.
Lemma drop_spec : forall old names l names' l', csorted l -> drop_old old names l = (names', l') ->
  csorted l' /\ (forall n, In n names' <-> In n names /\ ~ In n old) /\ (forall x, In x l' <-> In x l /\ ~ In (ct_name x) old).
Proof.
  induction old as [|n old IH]; intros names l names' l' S H; cbn [drop_old] in H.
  - injection H as <- <-. splits; auto; intros; cbn; tauto.
  - destruct (IH _ _ _ _ (remove_sorted n l S) H) as (A & B & C). splits; auto.
    + intro m. rewrite B, del_in. cbn [In]. intuition congruence.
    + intro x. rewrite C, remove_in. cbn [In]. intuition congruence.
Qed.
(* reloading a dynamic group: its names are then those on disk *)
Lemma reload_spec : forall now d g l y g' l', csorted l -> tg_dyn g = Some y -> td_expire y <= now -> tg_refresh now d g l = Ok (g', l') ->
  tg_id g' = tg_id g /\ tg_dyn g' = Some (mkTD (td_path y) (td_period y) (now + td_period y)) /\ csorted l' /\
  (forall n, In n (tg_names g') <-> on_disk d (td_path y) n) /\
  (forall x, In x l' -> In x l \/ In x (d (td_path y))) /\
  (forall x, In x l -> In x l' <-> ~ In (ct_name x) (tg_names g) \/ on_disk d (td_path y) (ct_name x)) /\
  (forall x, In x l' -> ~ In (ct_name x) (tg_names g) \/ on_disk d (td_path y) (ct_name x)) /\
  (forall n, on_disk d (td_path y) n -> ~ In n (tg_names g) -> exists x, In x l' /\ ct_name x = n).
Proof.
  intros now d g l y g' l' S Y L H. unfold tg_refresh in H. rewrite Y in H. destruct (Z.ltb_spec now (td_expire y)); [lia|]. unfold tp_add in H. destruct (_ && _); cbn [bind] in H; [|discriminate].
  destruct (load_certs _ _ _ _) as [[names old] l1] eqn:Lo. destruct (drop_old old names l1) as [names2 l2] eqn:Dr. injection H as <- <-. cbn [tg_id tg_dyn tg_names].
  destruct (load_spec _ _ _ _ _ _ _ S Lo) as (A & B & C & D & E & F & G). destruct (drop_spec _ _ _ _ _ A Dr) as (A' & B' & C').
  assert (Old : forall n, In n old <-> In n (tg_names g) /\ ~ on_disk d (td_path y) n).
  { intro n. split.
    - intro K. pose proof (C _ K) as K'. split; [exact K'|]. intros (c & I & <-). pose proof (proj1 (D _ K' K') K) as K2. now apply (K2 c).
    - intros [K1 K2]. apply (D _ K1 K1). intros c I E'. apply K2. exists c. auto. }
  assert (DD : forall n, on_disk d (td_path y) n \/ ~ on_disk d (td_path y) n).
  { intro n. unfold on_disk. destruct (existsb (fun c => names_eqb (ct_name c) n) (d (td_path y))) eqn:Ex.
    - left. apply existsb_exists in Ex as (c & I & E'). apply names_eqb_eq in E'. eauto.
    - right. intros (c & I & E'). assert (X : existsb (fun c => names_eqb (ct_name c) n) (d (td_path y)) = true) by (apply existsb_exists; exists c; split; [exact I|rewrite E'; apply names_eqb_refl]). congruence. }
  splits; auto.
  - intro n. rewrite B', B. rewrite Old. unfold on_disk. destruct (DD n) as [K|K]; unfold on_disk in K; tauto.
  - intros x X. apply C' in X. apply F. apply X.
  - intros x X. rewrite C', Old. destruct (DD (ct_name x)); specialize (E _ X); destruct (has_name (ct_name x) (tg_names g)) eqn:Hn; [apply has_iff in Hn; tauto| |apply has_iff in Hn; tauto|];
      (assert (~ In (ct_name x) (tg_names g)) by (intro K; apply has_iff in K; congruence)); tauto.
  - intros x X. apply C' in X as [X1 X2]. rewrite Old in X2. destruct (DD (ct_name x)); [auto|]. left. tauto.
  - intros n (c & I & <-) N. destruct (G c I N) as (x & X & Q). exists x. split; [|exact Q]. apply C'. split; [exact X|]. rewrite Old, Q. tauto.
Qed.

(* ---- groups ---- *)
Lemma find_in : forall i gs g, tg_find i gs = Some g -> In g gs /\ tg_id g = i.
Proof. intros i gs g H. unfold tg_find in H. apply find_some in H as [A B]. split; [exact A|]. lia. Qed.
Lemma find_nodup : forall gs g, NoDup (map tg_id gs) -> In g gs -> tg_find (tg_id g) gs = Some g.
Proof.
  induction gs as [|x gs IH]; intros g N I; [destruct I|]. cbn [map] in N. inversion N as [|? ? N1 N2]; subst. unfold tg_find in *. cbn [List.find].
  destruct (N.eqb_spec (tg_id x) (tg_id g)) as [E|E].
  - destruct I as [->|I]; [reflexivity|]. contradiction N1. rewrite E. now apply in_map.
  - destruct I as [->|I]; [congruence|]. now apply IH.
Qed.
Lemma put_in : forall g gs x, In x (tg_put g gs) -> x = g \/ (In x gs /\ tg_id x <> tg_id g).
Proof. intros g gs x I. unfold tg_put in I. apply in_map_iff in I as (y & E & I). destruct (N.eqb_spec (tg_id y) (tg_id g)) as [Q|Q]; subst; auto. Qed.
Lemma put_keep : forall g gs x, In x gs -> tg_id x <> tg_id g -> In x (tg_put g gs).
Proof. intros g gs x I N. unfold tg_put. apply in_map_iff. exists x. split; [|exact I]. destruct (N.eqb_spec (tg_id x) (tg_id g)); congruence. Qed.
Lemma put_new : forall g gs, In (tg_id g) (map tg_id gs) -> In g (tg_put g gs).
Proof. intros g gs I. apply in_map_iff in I as (y & E & I). unfold tg_put. apply in_map_iff. exists y. split; [|exact I]. destruct (N.eqb_spec (tg_id y) (tg_id g)); congruence. Qed.
Lemma put_ids : forall g gs, map tg_id (tg_put g gs) = map tg_id gs.
Proof. intros g gs. unfold tg_put. rewrite map_map. apply map_ext. intro x. destruct (N.eqb_spec (tg_id x) (tg_id g)); congruence. Qed.
Lemma id_uniq : forall gs x y, NoDup (map tg_id gs) -> In x gs -> In y gs -> tg_id x = tg_id y -> x = y.
Proof. intros gs x y N I J E. pose proof (find_nodup _ _ N I) as A. pose proof (find_nodup _ _ N J) as B. rewrite E in A. congruence. Qed.

Definition ginv (h : list taop) (g : tgroup) : Prop :=
  match tg_dyn g with
  | None => forall n, In n (tg_names g) -> static_in h (tg_id g) n
  | Some y => 0 < td_period y /\ (exists t0 d0, In (TADyn t0 d0 (tg_id g) (td_path y) (td_period y)) (since_clear h)) /\
      exists o t d, In o (since_clear h) /\ reads o t d /\ td_expire y = t + td_period y /\ forall n, In n (tg_names g) -> on_disk d (td_path y) n
  end.
Record ainv (h : list taop) (a : anchors) : Prop := {
  ai_sorted : csorted (ta_certs a);
  ai_ids : NoDup (map tg_id (ta_groups a));
  ai_groups : forall g, In g (ta_groups a) -> ginv h g;
  ai_cover : forall c, In c (ta_certs a) -> exists g, In g (ta_groups a) /\ In (ct_name c) (tg_names g);
  ai_source : forall c, In c (ta_certs a) -> source h c }.
Lemma since_cons : forall o h, o <> TAClear -> since_clear (o :: h) = o :: since_clear h.
Proof. intros o h N. destruct o; try reflexivity. congruence. Qed.
Lemma static_mono : forall o h i n, o <> TAClear -> o <> TARem i n -> static_in h i n -> static_in (o :: h) i n.
Proof.
  intros o h i n A B (h1 & c & h2 & E & K & N). exists (o :: h1), c, h2. rewrite since_cons by exact A. rewrite E. splits; auto. intros [X|X]; congruence || contradiction.
Qed.
Lemma source_mono : forall o h c, o <> TAClear -> source h c -> source (o :: h) c.
Proof.
  intros o h c A [(i & I)|(t0 & d0 & i & path & period & o' & t & d & I1 & I2 & R)]; rewrite ?since_cons in * by exact A.
  - left. exists i. rewrite since_cons by exact A. now right.
  - right. exists t0, d0, i, path, period, o', t, d. rewrite since_cons by exact A. splits; try (now right); apply R.
Qed.
Lemma ginv_mono : forall o h g, o <> TAClear -> (forall i n, o <> TARem i n) -> ginv h g -> ginv (o :: h) g.
Proof.
  intros o h g A B. unfold ginv. destruct (tg_dyn g) as [y|].
  - intros (P & (t0 & d0 & I) & o' & t & d & I2 & R). splits; auto.
    + exists t0, d0. rewrite since_cons by exact A. now right.
    + exists o', t, d. rewrite since_cons by exact A. splits; try apply R. now right.
  - intros H n I. apply static_mono; auto.
Qed.
Lemma ainv_mono : forall o h a, o <> TAClear -> (forall i n, o <> TARem i n) -> ainv h a -> ainv (o :: h) a.
Proof. intros o h a A B [S I G C Src]. constructor; auto; intros; [apply ginv_mono; auto|apply source_mono; auto]. Qed.
(* refreshing *)
Lemma refresh_one : forall h o now d g a g' l', ainv h a -> In o (since_clear h) -> reads o now d -> In g (ta_groups a) -> tg_refresh now d g (ta_certs a) = Ok (g', l') ->
  ainv h (mkTA (tg_put g' (ta_groups a)) l') /\ tg_id g' = tg_id g /\ (forall y, tg_dyn g' = Some y -> now < td_expire y).
Proof.
  intros h o now d g a g' l' Inv Io Rd Ig H. destruct Inv as [S Ids G C Src]. destruct (tg_dyn g) as [y|] eqn:Y.
  2:{ unfold tg_refresh in H. rewrite Y in H. injection H as <- <-. splits; auto; [|congruence].
      assert (E : forall x, In x (tg_put g (ta_groups a)) <-> In x (ta_groups a)). { intro x. split; [intro X; apply put_in in X as [->|[X _]]; auto|]. intro X. destruct (N.eq_dec (tg_id x) (tg_id g)) as [Q|Q]; [|now apply put_keep]. rewrite (id_uniq _ _ _ Ids X Ig Q). apply put_new. now apply in_map. }
      constructor; cbn [ta_certs ta_groups]; auto; [now rewrite put_ids|intros x X; apply E in X; auto|]. intros c X. destruct (C c X) as (x & Xi & K). exists x. split; [now apply E|exact K]. }
  destruct (Z.ltb_spec now (td_expire y)) as [L|L].
  - assert (Q : g' = g /\ l' = ta_certs a). { unfold tg_refresh in H. rewrite Y in H. destruct (Z.ltb_spec now (td_expire y)); [|lia]. injection H as <- <-. auto. } destruct Q as [-> ->].
    splits; auto; [|intros y' E; rewrite Y in E; injection E as <-; exact L].
    assert (E : forall x, In x (tg_put g (ta_groups a)) <-> In x (ta_groups a)). { intro x. split; [intro X; apply put_in in X as [->|[X _]]; auto|]. intro X. destruct (N.eq_dec (tg_id x) (tg_id g)) as [Q|Q]; [|now apply put_keep]. rewrite (id_uniq _ _ _ Ids X Ig Q). apply put_new. now apply in_map. }
    constructor; cbn [ta_certs ta_groups]; auto; [now rewrite put_ids|intros x X; apply E in X; auto|]. intros c X. destruct (C c X) as (x & Xi & K). exists x. split; [now apply E|exact K].
  - destruct (reload_spec _ _ _ _ _ _ _ S Y L H) as (Ei & Ey & S' & Nm & Fr & Keep & Gone & _). pose proof (G _ Ig) as Gi. unfold ginv in Gi. rewrite Y in Gi. destruct Gi as (Pp & (t0 & d0 & Dyn) & _).
    splits; auto; [|intros y' E; rewrite Ey in E; injection E as <-; cbn; lia].
    assert (New : In g' (tg_put g' (ta_groups a))) by (apply put_new; rewrite Ei; now apply in_map).
    constructor; cbn [ta_certs ta_groups]; auto.
    + now rewrite put_ids.
    + intros x X. apply put_in in X as [->|[X _]]; [|auto]. unfold ginv. rewrite Ey. cbn [td_period td_path td_expire]. splits; auto; [exists t0, d0; rewrite Ei; exact Dyn|]. exists o, now, d. splits; auto. intros n I. now apply Nm.
    + intros c X. destruct (Fr _ X) as [X'|X'].
      * destruct (C c X') as (x & Xi & K). destruct (N.eq_dec (tg_id x) (tg_id g)) as [Q|Q].
        -- rewrite (id_uniq _ _ _ Ids Xi Ig Q) in K. exists g'. split; [exact New|]. apply Nm. destruct (Gone _ X); [contradiction|assumption].
        -- exists x. split; [apply put_keep; congruence|exact K].
      * exists g'. split; [exact New|]. apply Nm. exists c. auto.
    + intros c X. destruct (Fr _ X) as [X'|X']; [auto|]. right. exists t0, d0, (tg_id g), (td_path y), (td_period y), o, now, d. auto.
Qed.
Lemma refresh_inv : forall ids h o now d a a', ainv h a -> In o (since_clear h) -> reads o now d -> refresh_ids now d ids a = Ok a' ->
  ainv h a' /\ map tg_id (ta_groups a') = map tg_id (ta_groups a) /\
  forall g y, In g (ta_groups a') -> tg_dyn g = Some y -> In (tg_id g) ids \/ (In g (ta_groups a) /\ ~ In (tg_id g) ids) -> (In (tg_id g) ids -> now < td_expire y).
Proof.
  assert (Pw : forall ids h o now d a a' g y, ainv h a -> In o (since_clear h) -> reads o now d -> refresh_ids now d ids a = Ok a' -> In g (ta_groups a') -> tg_dyn g = Some y ->
     (In (tg_id g) ids \/ (forall g0 y0, In g0 (ta_groups a) -> tg_id g0 = tg_id g -> tg_dyn g0 = Some y0 -> now < td_expire y0)) -> now < td_expire y).
  { induction ids as [|i ids IH]; intros h o now d a a' g y Inv Io Rd H Ig Y K; cbn [refresh_ids] in H.
    - injection H as <-. destruct K as [[]|K]. apply (K g y); auto.
    - destruct (tg_find i (ta_groups a)) as [g0|] eqn:F.
      + apply find_in in F as [F1 F2]. destruct (tg_refresh now d g0 (ta_certs a)) as [[g1 l1]|] eqn:R; cbn [bind fst snd] in H; [|discriminate].
        destruct (refresh_one _ _ _ _ _ _ _ _ Inv Io Rd F1 R) as (Inv' & Ei & Ex). eapply (IH _ _ _ _ _ _ _ _ Inv' Io Rd H Ig Y). cbn [ta_groups].
        destruct K as [[K|K]|K]; [|now left|].
        * right. intros g2 y2 I2 E2 Y2. apply put_in in I2 as [->|[I2 N2]]; [auto|]. congruence.
        * right. intros g2 y2 I2 E2 Y2. apply put_in in I2 as [->|[I2 N2]]; [auto|]. eauto.
      + eapply (IH _ _ _ _ _ _ _ _ Inv Io Rd H Ig Y). destruct K as [[K|K]|K]; auto. right. intros g0 y0 I0 E0 _. subst i. rewrite <- E0 in F. rewrite (find_nodup _ _ (ai_ids _ _ Inv) I0) in F. discriminate. }
  intros ids h o now d a a' Inv Io Rd H. assert (A : ainv h a' /\ map tg_id (ta_groups a') = map tg_id (ta_groups a)).
  { clear Pw. revert a Inv H. induction ids as [|i ids IH]; intros a Inv H; cbn [refresh_ids] in H.
    - injection H as <-. auto.
    - destruct (tg_find i (ta_groups a)) as [g0|] eqn:F; [|auto]. apply find_in in F as [F1 F2]. destruct (tg_refresh now d g0 (ta_certs a)) as [[g1 l1]|] eqn:R; cbn [bind fst snd] in H; [|discriminate].
      destruct (refresh_one _ _ _ _ _ _ _ _ Inv Io Rd F1 R) as (Inv' & Ei & _). destruct (IH _ Inv' H) as [A B]. split; [exact A|]. rewrite B. cbn [ta_groups]. apply put_ids. }
  destruct A as [A B]. splits; auto. intros g y Ig Y _ K. apply (Pw ids h o now d a a' g y); auto.
Qed.
Lemma refresh_all : forall h o now d ord a a', ainv h a -> In o (since_clear h) -> reads o now d -> ta_refresh now d ord a = Ok a' ->
  ainv h a' /\ forall g y, In g (ta_groups a') -> tg_dyn g = Some y -> now < td_expire y.
Proof.
  intros h o now d ord a a' Inv Io Rd H. destruct (refresh_inv _ _ _ _ _ _ _ Inv Io Rd H) as (A & B & C). split; [exact A|]. intros g y Ig Y.
  assert (K : In (tg_id g) (ord ++ map tg_id (ta_groups a))) by (apply in_or_app; right; rewrite <- B; now apply in_map). eapply C; eauto.
Qed.
Lemma step_ainv : forall h o a a' x, clocked o -> ainv h a -> ta_step o a = Ok (a', x) -> ainv (o :: h) a'.
Proof.
  intros h o a a' x Ck Inv H. destruct o as [i c|now d i path period|i n| |now d ord n|now d ord q]; cbn [ta_step] in H.
  - injection H as <- <-. assert (Inv' : ainv (TAIns i c :: h) a) by (apply ainv_mono; auto; discriminate). destruct Inv' as [S Ids G C Src]. unfold ta_insert.
    assert (Me : static_in (TAIns i c :: h) i (ct_name c)) by (exists [], c, (since_clear h); splits; auto).
    assert (Meq : source (TAIns i c :: h) c) by (left; exists i; now left).
    destruct (tg_find i (ta_groups a)) as [g|] eqn:F.
    + rewrite F. apply find_in in F as [F1 F2]. destruct (tg_dyn g) as [y|] eqn:Y; cbn [fst]; [constructor; auto|]. destruct (has_name (ct_name c) (tg_names g)) eqn:Hn; cbn [fst]; [constructor; auto|].
      set (g' := mkTG i (ct_name c :: tg_names g) None). assert (New : In g' (tg_put g' (ta_groups a))) by (apply put_new; cbn [tg_id g']; rewrite <- F2; now apply in_map).
      constructor; cbn [ta_certs ta_groups]; auto.
      * now apply add_sorted.
      * now rewrite put_ids.
      * intros x X. apply put_in in X as [->|[X _]]; [|auto]. unfold ginv. cbn [g' tg_dyn tg_names tg_id]. intros n [<-|I]; [exact Me|]. pose proof (G _ F1) as Gi. unfold ginv in Gi. rewrite Y, F2 in Gi. auto.
      * intros x X. apply add_in in X; [|exact S]. destruct X as [X|[-> _]]; [|exists g'; split; [exact New|now left]]. destruct (C _ X) as (g0 & I0 & K). destruct (N.eq_dec (tg_id g0) i) as [Q|Q].
        -- exists g'. split; [exact New|]. right. assert (g0 = g) by (eapply id_uniq; eauto; congruence). congruence.
        -- exists g0. split; [now apply put_keep|exact K].
      * intros x X. apply add_in in X; [|exact S]. destruct X as [X|[-> _]]; auto.
    + unfold tg_find. cbn [List.find tg_id]. rewrite N.eqb_refl. cbn [tg_dyn has_name tg_names existsb fst]. set (g' := mkTG i [ct_name c] None).
      assert (E : tg_put g' (mkTG i [] None :: ta_groups a) = g' :: ta_groups a).
      { unfold tg_put. cbn [map tg_id g']. rewrite N.eqb_refl. f_equal. rewrite <- (map_id (ta_groups a)) at 2. apply map_ext_in. intros x X. destruct (N.eqb_spec (tg_id x) i) as [Q|Q]; [|reflexivity].
        rewrite <- Q in F. rewrite (find_nodup _ _ Ids X) in F. discriminate. }
      rewrite E. constructor; cbn [ta_certs ta_groups]; auto.
      * now apply add_sorted.
      * cbn [map]. constructor; [|exact Ids]. intro I. apply in_map_iff in I as (x & Q & X). cbn [g' tg_id] in Q. rewrite <- Q in F. rewrite (find_nodup _ _ Ids X) in F. discriminate.
      * intros x [<-|X]; [|auto]. unfold ginv. cbn [g' tg_dyn tg_names tg_id]. intros n [<-|[]]. exact Me.
      * intros x X. apply add_in in X; [|exact S]. destruct X as [X|[-> _]]; [|exists g'; split; [now left|now left]]. destruct (C _ X) as (g0 & I0 & K). exists g0. split; [now right|exact K].
      * intros x X. apply add_in in X; [|exact S]. destruct X as [X|[-> _]]; auto.
  - destruct (ta_insertDyn now d i path period a) as [p|] eqn:P; cbn [bind] in H; [|discriminate]. injection H as <- <-. unfold ta_insertDyn in P.
    assert (Inv' : ainv (TADyn now d i path period :: h) a) by (apply ainv_mono; auto; discriminate).
    destruct (existsb (fun g => (tg_id g =? i)%N) (ta_groups a)) eqn:Ex; [injection P as <-; exact Inv'|]. destruct (Z.leb_spec period 0) as [L|L]; [injection P as <-; exact Inv'|].
    destruct (tg_refresh now d (mkTG i [] (Some (mkTD path period 0))) (ta_certs a)) as [[g' l']|] eqn:R; cbn [bind fst snd] in P; [|discriminate]. injection P as <-. cbn [fst].
    destruct Inv' as [S Ids G C Src]. assert (Fresh : ~ In i (map tg_id (ta_groups a))).
    { intro I. apply in_map_iff in I as (x & Q & X). assert (Y : existsb (fun g => (tg_id g =? i)%N) (ta_groups a) = true) by (apply existsb_exists; exists x; split; [exact X|lia]). congruence. }
    assert (Me : In (TADyn now d i path period) (since_clear (TADyn now d i path period :: h))) by now left.
    assert (Ln : 0 <= now) by (apply (Ck now d); cbn; auto).
    + destruct (reload_spec now d (mkTG i [] (Some (mkTD path period 0))) _ (mkTD path period 0) _ _ S eq_refl Ln R) as (Ei & Ey & S' & Nm & Fr & _). cbn [td_path td_period tg_id] in *.
      constructor; cbn [ta_certs ta_groups]; auto.
      * cbn [map]. rewrite Ei. now constructor.
      * intros x [<-|X]; [|auto]. unfold ginv. rewrite Ey. cbn [td_period td_path td_expire]. rewrite Ei. splits; auto; [eauto|]. exists (TADyn now d i path period), now, d. splits; cbn [reads]; auto. intros n I. now apply Nm.
      * intros x X. destruct (Fr _ X) as [X'|X']; [destruct (C _ X') as (g0 & I0 & K); exists g0; split; [now right|exact K]|]. exists g'. split; [now left|]. apply Nm. exists x. auto.
      * intros x X. destruct (Fr _ X) as [X'|X']; [auto|]. right. exists now, d, i, path, period, (TADyn now d i path period), now, d. splits; cbn [reads]; auto.
  - injection H as <- <-. unfold ta_remove. destruct Inv as [S Ids G C Src]. assert (Sm : forall i' n', (i', n') <> (i, n) -> static_in h i' n' -> static_in (TARem i n :: h) i' n') by (intros i' n' Ne; apply static_mono; [discriminate|congruence]).
    assert (Gm : forall g, In g (ta_groups a) -> tg_id g <> i \/ tg_dyn g <> None -> ginv (TARem i n :: h) g).
    { intros g Ig D. specialize (G _ Ig). unfold ginv in *. destruct (tg_dyn g) as [y|] eqn:Y.
      - destruct G as (Pp & (t0 & d0 & I) & o' & t & d & I2 & R). splits; auto; [exists t0, d0; now right|exists o', t, d; splits; try apply R; now right].
      - intros m I. apply Sm; [|auto]. destruct D as [D|D]; congruence. }
    assert (So : forall c, In c (ta_certs a) -> source (TARem i n :: h) c) by (intros; apply source_mono; [discriminate|auto]).
    destruct (tg_find i (ta_groups a)) as [g|] eqn:F; cbn [fst].
    + apply find_in in F as [F1 F2]. destruct (tg_dyn g) as [y|] eqn:Y; cbn [fst].
      * constructor; auto. intros x X. apply Gm; [exact X|]. destruct (N.eq_dec (tg_id x) i) as [Q|Q]; [right|auto]. assert (x = g) by (eapply id_uniq; eauto; congruence). congruence.
      * set (g' := mkTG i (del_name n (tg_names g)) None). assert (New : In g' (tg_put g' (ta_groups a))) by (apply put_new; cbn [tg_id g']; rewrite <- F2; now apply in_map).
        constructor; cbn [ta_certs ta_groups]; auto.
        -- now apply remove_sorted.
        -- now rewrite put_ids.
        -- intros x X. apply put_in in X as [->|[X Nx]]; [|apply Gm; [exact X|left; exact Nx]]. unfold ginv. cbn [g' tg_dyn tg_names tg_id]. intros m I. apply del_in in I as [I Nm]. specialize (G _ F1). unfold ginv in G. rewrite Y, F2 in G. apply Sm; [congruence|auto].
        -- intros x X. apply remove_in in X as [X Nx]. destruct (C _ X) as (g0 & I0 & K). destruct (N.eq_dec (tg_id g0) i) as [Q|Q].
           ++ exists g'. split; [exact New|]. cbn [g' tg_names]. apply del_in. split; [|exact Nx]. assert (g0 = g) by (eapply id_uniq; eauto; congruence). congruence.
           ++ exists g0. split; [now apply put_keep|exact K].
        -- intros x X. apply remove_in in X as [X _]. auto.
    + constructor; auto. intros x X. apply Gm; [exact X|]. left. intro Q. rewrite <- Q in F. rewrite (find_nodup _ _ Ids X) in F. discriminate.
  - injection H as <- <-. unfold ta_clear, ta_empty. constructor; cbn [ta_certs ta_groups]; [constructor|constructor|intros ? []..].
  - unfold ta_findName in H. destruct (ta_refresh now d ord a) as [a1|] eqn:R; cbn [bind fst snd] in H; [|discriminate]. injection H as <- <-.
    apply (refresh_all (TAFindN now d ord n :: h) (TAFindN now d ord n) now d ord a a1); [apply ainv_mono; auto; discriminate|now left|cbn; auto|exact R].
  - unfold ta_findInterest in H. destruct (ta_refresh now d ord a) as [a1|] eqn:R; cbn [bind fst snd] in H; [|discriminate]. injection H as <- <-.
    apply (refresh_all (TAFindI now d ord q :: h) (TAFindI now d ord q) now d ord a a1); [apply ainv_mono; auto; discriminate|now left|cbn; auto|exact R].
Qed.

(* ---- lookups ---- *)
Definition wrap (c : cert) : centry := mkCE c 0.
Lemma lower_wrap : forall n l, lower_name n (map wrap l) = map wrap (alower n l).
Proof. intros n. induction l as [|c l IH]; [reflexivity|]. cbn [map lower_name alower]. change (ce_name (wrap c)) with (ct_name c). destruct (names_ltb (ct_name c) n); [exact IH|reflexivity]. Qed.
Lemma scan_wrap : forall q l, scan_match q (map wrap l) = ascan q l.
Proof. intros q. induction l as [|c l IH]; [reflexivity|]. cbn [map scan_match ascan]. change (ce_name (wrap c)) with (ct_name c). change (ce_cert (wrap c)) with c. rewrite IH. reflexivity. Qed.
Lemma sorted_wrap : forall l, csorted l -> nsorted (map wrap l).
Proof.
  induction l as [|c l IH]; intro H; [constructor|]. inversion H as [|? ? H1 H2]; subst. cbn [map]. constructor; [exact (IH H1)|]. rewrite Forall_forall in H2. apply Forall_forall. intros x X. apply in_map_iff in X as (y & <- & Y). exact (H2 y Y).
Qed.
Lemma in_wrap : forall l c, (exists e, In e (map wrap l) /\ ce_cert e = c) <-> In c l.
Proof. intros l c. split; [intros (e & I & <-); apply in_map_iff in I as (x & <- & I); exact I|intro I; exists (wrap c); split; [now apply in_map|reflexivity]]. Qed.
Lemma afirst_spec : forall n l, csorted l -> first_by_name (fun c => is_prefix n (ct_name c) /\ In c l) (match alower n l with [] => None | c :: _ => if prefixb n (ct_name c) then Some c else None end).
Proof.
  intros n l S. pose proof (first_spec n _ (sorted_wrap _ S)) as H. cbn zeta in H. rewrite lower_wrap in H. eapply first_ext; [|destruct (alower n l); exact H]. intro c. cbn beta. rewrite <- in_wrap. tauto.
Qed.
Lemma ascan_spec : forall q l, csorted l -> first_by_name (fun c => is_prefix (q_name q) (ct_name c) /\ q_accepts q (ct_pk c) /\ In c l) (ascan q (alower (q_name q) l)).
Proof.
  intros q l S. pose proof (sorted_wrap _ S) as W. pose proof (scan_spec q _ (lower_sorted (q_name q) _ W)) as H.
  assert (G : forall x, In x (lower_name (q_name q) (map wrap l)) -> ~ names_lt (ce_name x) (q_name q)) by (intros x I; apply lower_in in I; [tauto|exact W]). specialize (H G). rewrite lower_wrap, scan_wrap in H.
  eapply first_ext; [|exact H]. intro c. cbn beta. rewrite <- (in_wrap l c). split; intros (P & A & e & I & E); (split; [exact P|split; [exact A|]]); exists e; (split; [|exact E]).
  - rewrite <- lower_wrap in I. apply lower_in in I; [tauto|exact W].
  - rewrite <- lower_wrap. apply lower_in; [exact W|]. split; [exact I|]. intro Q. rewrite <- E in P. change (is_prefix (q_name q) (ce_name e)) in P. apply prefix_ge in P. destruct P as [P|P]; [rewrite P in Q; exact (names_lt_irr _ Q)|exact (names_lt_irr _ (names_lt_trans _ _ _ P Q))].
Qed.
Lemma run_ainv : forall l h a a' outs, Forall clocked l -> ainv h a -> ta_run l a = Ok (a', outs) -> ainv (rev l ++ h) a'.
Proof.
  induction l as [|o l IH]; intros h a a' outs F Inv H; cbn [ta_run] in H; [injection H as <- <-; exact Inv|]. inversion F as [|? ? F1 F2]; subst.
  destruct (ta_step o a) as [[a1 x]|] eqn:St; cbn [bind fst snd] in H; [|discriminate]. destruct (ta_run l a1) as [[a2 xs]|] eqn:R; cbn [bind fst snd] in H; [|discriminate]. injection H as <- <-.
  cbn [rev]. rewrite <- app_assoc. cbn [app]. eapply IH; [exact F2|eapply step_ainv; eauto|exact R].
Qed.
Lemma empty_ainv : ainv [] ta_empty.
Proof. constructor; cbn [ta_empty ta_certs ta_groups]; [constructor|constructor|intros ? []..]. Qed.
Lemma held_in : forall h now a, ainv h a -> (forall g y, In g (ta_groups a) -> tg_dyn g = Some y -> now < td_expire y) ->
  forall c, In c (ta_certs a) -> source h c /\ ((exists i, static_in h i (ct_name c)) \/ exists i, dynamic_in h now i (ct_name c)).
Proof.
  intros h now a Inv Ex c I. split; [now apply (ai_source _ _ Inv)|]. destruct (ai_cover _ _ Inv c I) as (g & Ig & K). pose proof (ai_groups _ _ Inv g Ig) as G. unfold ginv in G. destruct (tg_dyn g) as [y|] eqn:Y; [|left; eauto].
  right. exists (tg_id g). destruct G as (_ & (t0 & d0 & D) & o & t & d & Io & R & E & Nm). exists t0, d0, (td_path y), (td_period y), o, t, d. splits; auto. rewrite <- E. eauto.
Qed.

(* ---- a static anchor stays ---- *)
Record kept (c : cert) (a : anchors) : Prop := {
  kp_sorted : csorted (ta_certs a); kp_in : In c (ta_certs a); kp_ids : NoDup (map tg_id (ta_groups a));
  kp_dyn : forall g y, In g (ta_groups a) -> tg_dyn g = Some y -> ~ In (ct_name c) (tg_names g) }.
Lemma refresh_kept : forall ids c now d a a', (forall path, ~ on_disk d path (ct_name c)) -> kept c a -> refresh_ids now d ids a = Ok a' -> kept c a'.
Proof.
  induction ids as [|i ids IH]; intros c now d a a' Nd K H; cbn [refresh_ids] in H; [injection H as <-; exact K|]. destruct (tg_find i (ta_groups a)) as [g|] eqn:F; [|eapply IH; eauto].
  destruct (tg_refresh now d g (ta_certs a)) as [[g' l']|] eqn:R; cbn [bind fst snd] in H; [|discriminate]. apply (IH c now d _ a' Nd) in H; [exact H|]. apply find_in in F as [F1 F2]. destruct K as [S I Ids D].
  destruct (tg_dyn g) as [y|] eqn:Y.
  - destruct (Z.ltb_spec now (td_expire y)) as [L|L].
    + unfold tg_refresh in R. rewrite Y in R. destruct (Z.ltb_spec now (td_expire y)); [|lia]. injection R as <- <-. constructor; cbn [ta_certs ta_groups]; auto; [now rewrite put_ids|]. intros g0 y0 I0 Y0. apply put_in in I0 as [->|[I0 _]]; eauto.
    + destruct (reload_spec _ _ _ _ _ _ _ S Y L R) as (Ei & Ey & S' & Nm & Fr & Keep & _). constructor; cbn [ta_certs ta_groups]; auto.
      * apply Keep; [exact I|]. left. eauto.
      * now rewrite put_ids.
      * intros g0 y0 I0 Y0. apply put_in in I0 as [->|[I0 _]]; [|eauto]. intro X. apply Nm in X. exact (Nd _ X).
  - unfold tg_refresh in R. rewrite Y in R. injection R as <- <-. constructor; cbn [ta_certs ta_groups]; auto; [now rewrite put_ids|]. intros g0 y0 I0 Y0. apply put_in in I0 as [->|[I0 _]]; eauto.
Qed.
Lemma untouched_disk : forall n o t d, ~ touches n o -> reads o t d -> forall path, ~ on_disk d path n.
Proof. intros n o t d Nt R path X. apply Nt. destruct o; cbn [reads] in R; try contradiction; cbn [touches]; exists t, d, path; auto. Qed.
Lemma step_kept : forall c o a a' x, clocked o -> ~ touches (ct_name c) o -> kept c a -> ta_step o a = Ok (a', x) -> kept c a'.
Proof.
  intros c o a a' x Ck Nt K H. destruct o as [i e|now d i path period|i n| |now d ord n|now d ord q]; cbn [ta_step] in H.
  - injection H as <- <-. cbn [touches] in Nt. destruct K as [S I Ids D]. unfold ta_insert.
    destruct (tg_find i (ta_groups a)) as [g|] eqn:F.
    + rewrite F. destruct (tg_dyn g) as [y|] eqn:Y; cbn [fst]; [constructor; auto|]. destruct (has_name _ _); cbn [fst]; [constructor; auto|]. constructor; cbn [ta_certs ta_groups].
      * now apply add_sorted.
      * apply add_in; auto.
      * now rewrite put_ids.
      * intros g0 y0 I0 Y0. apply put_in in I0 as [->|[I0 _]]; [discriminate|eauto].
    + unfold tg_find. cbn [List.find tg_id]. rewrite N.eqb_refl. cbn [tg_dyn has_name tg_names existsb fst]. constructor; cbn [ta_certs ta_groups].
      * now apply add_sorted.
      * apply add_in; auto.
      * rewrite put_ids. cbn [map tg_id]. constructor; [|exact Ids]. intro J. apply in_map_iff in J as (g & Q & X). rewrite <- Q in F. rewrite (find_nodup _ _ Ids X) in F. discriminate.
      * intros g0 y0 I0 Y0. apply put_in in I0 as [->|[[<-|I0] _]]; [discriminate|discriminate|eauto].
  - destruct (ta_insertDyn now d i path period a) as [p|] eqn:P; cbn [bind] in H; [|discriminate]. injection H as <- <-. unfold ta_insertDyn in P.
    destruct (existsb (fun g => (tg_id g =? i)%N) (ta_groups a)) eqn:Ex; [injection P as <-; exact K|]. destruct (Z.leb_spec period 0) as [L|L]; [injection P as <-; exact K|].
    destruct (tg_refresh now d (mkTG i [] (Some (mkTD path period 0))) (ta_certs a)) as [[g' l']|] eqn:R; cbn [bind fst snd] in P; [|discriminate]. injection P as <-. cbn [fst].
    assert (Nd : forall p, ~ on_disk d p (ct_name c)) by (eapply untouched_disk; [exact Nt|cbn; auto]). assert (Ln : 0 <= now) by (apply (Ck now d); cbn; auto). destruct K as [S I Ids D].
    destruct (reload_spec now d (mkTG i [] (Some (mkTD path period 0))) _ (mkTD path period 0) _ _ S eq_refl Ln R) as (Ei & Ey & S' & Nm & Fr & Keep & _). cbn [td_path td_period tg_id tg_names] in *. constructor; cbn [ta_certs ta_groups]; auto.
    + apply Keep; auto.
    + cbn [map]. rewrite Ei. constructor; [|exact Ids]. intro J. apply in_map_iff in J as (x & Q & X). assert (Y : existsb (fun g => (tg_id g =? i)%N) (ta_groups a) = true) by (apply existsb_exists; exists x; split; [exact X|lia]). congruence.
    + intros g0 y0 [<-|I0] Y0; [|eauto]. intro X. apply Nm in X. exact (Nd _ X).
  - injection H as <- <-. cbn [touches] in Nt. unfold ta_remove. destruct (tg_find i (ta_groups a)) as [g|] eqn:F; [|exact K]. destruct (tg_dyn g) as [y|] eqn:Y; [exact K|]. destruct K as [S I Ids D]. constructor; cbn [fst ta_certs ta_groups].
    + now apply remove_sorted.
    + apply remove_in. auto.
    + now rewrite put_ids.
    + intros g0 y0 I0 Y0. apply put_in in I0 as [->|[I0 _]]; [discriminate|eauto].
  - contradiction Nt. exact I.
  - unfold ta_findName, ta_refresh in H. destruct (refresh_ids _ _ _ _) as [a1|] eqn:R; cbn [bind fst snd] in H; [|discriminate]. injection H as <- <-. eapply refresh_kept; [|exact K|exact R]. eapply untouched_disk; [exact Nt|cbn; auto].
  - unfold ta_findInterest, ta_refresh in H. destruct (refresh_ids _ _ _ _) as [a1|] eqn:R; cbn [bind fst snd] in H; [|discriminate]. injection H as <- <-. eapply refresh_kept; [|exact K|exact R]. eapply untouched_disk; [exact Nt|cbn; auto].
Qed.
Lemma run_kept : forall l c a a' outs, Forall clocked l -> (forall o, In o l -> ~ touches (ct_name c) o) -> kept c a -> ta_run l a = Ok (a', outs) -> kept c a'.
Proof.
  induction l as [|o l IH]; intros c a a' outs F Nt K H; cbn [ta_run] in H; [injection H as <- <-; exact K|]. inversion F as [|? ? F1 F2]; subst.
  destruct (ta_step o a) as [[a1 x]|] eqn:St; cbn [bind fst snd] in H; [|discriminate]. destruct (ta_run l a1) as [[a2 xs]|] eqn:R; cbn [bind fst snd] in H; [|discriminate]. injection H as <- <-.
  eapply IH; [exact F2| |eapply step_kept; [exact F1|apply Nt; now left|exact K|exact St]|exact R]. intros o' I. apply Nt. now right.
Qed.
(* before it is inserted: the name is nowhere *)
Lemma fresh_history : forall n h, (forall o, In o h -> o = TAClear \/ ~ touches n o) -> (forall i, ~ static_in h i n) /\ (forall o t d path, In o (since_clear h) -> reads o t d -> ~ on_disk d path n) /\ (forall c, source h c -> ct_name c <> n).
Proof.
  intros n h H. assert (Sub : forall o, In o (since_clear h) -> ~ touches n o).
  { induction h as [|o' h IH]; intros o I; [destruct I|]. assert (Q : o' = TAClear \/ In o (o' :: since_clear h)) by (destruct o'; auto). destruct Q as [->|Q]; [destruct I|]. destruct Q as [<-|Q].
    - destruct (H o' (or_introl eq_refl)) as [->|X]; [destruct I|exact X].
    - apply IH; [|exact Q]. intros o2 I2. apply H. now right. }
  assert (D : forall o t d path, In o (since_clear h) -> reads o t d -> ~ on_disk d path n) by (intros o t d path I R; eapply untouched_disk; eauto).
  splits; auto.
  - intros i (h1 & c & h2 & E & <- & _). apply (Sub (TAIns i c)); [rewrite E; apply in_or_app; right; now left|reflexivity].
  - intros c [(i & I)|(t0 & d0 & i & path & period & o & t & d & I1 & I2 & R & Ic)] E; [exact (Sub _ I E)|]. apply (D o t d path I2 R). exists c. auto.
Qed.
Lemma insert_kept : forall h a c i a' , ainv h a -> (forall o, In o h -> o = TAClear \/ ~ touches (ct_name c) o) -> ta_step (TAIns i c) a = Ok (a', TOut None) -> kept c a'.
Proof.
  intros h a c i a' Inv Hh H. destruct (fresh_history _ _ Hh) as (A & B & D). destruct Inv as [S Ids G C Src].
  assert (Nn : forall g, In g (ta_groups a) -> ~ In (ct_name c) (tg_names g)).
  { intros g Ig X. specialize (G _ Ig). unfold ginv in G. destruct (tg_dyn g) as [y|]; [|exact (A _ (G _ X))]. destruct G as (_ & _ & o & t & d & Io & R & _ & Nm). exact (B _ _ _ _ Io R (Nm _ X)). }
  assert (Nc : forall y, In y (ta_certs a) -> ct_name y <> ct_name c) by (intros y Y; apply D; auto).
  cbn [ta_step] in H. unfold ta_insert in H. destruct (tg_find i (ta_groups a)) as [g|] eqn:F.
  - rewrite F in H. destruct (tg_dyn g) as [y|] eqn:Y; cbn [fst snd] in H; [discriminate|]. apply find_in in F as [F1 F2]. destruct (has_name (ct_name c) (tg_names g)) eqn:Hn; cbn [fst snd] in H.
    + apply has_iff in Hn. contradiction (Nn _ F1 Hn).
    + injection H as <-. constructor; cbn [ta_certs ta_groups]; [now apply add_sorted|apply add_in; auto|now rewrite put_ids|]. intros g0 y0 I0 Y0. apply put_in in I0 as [->|[I0 _]]; [discriminate|auto].
  - unfold tg_find in H. cbn [List.find tg_id] in H. rewrite N.eqb_refl in H. cbn [tg_dyn has_name tg_names existsb fst snd] in H. assert (OI : forall A (x y : A), Ok x = Ok y -> x = y) by congruence. apply OI, (f_equal fst) in H. cbn [fst] in H. subst a'. constructor; cbn [ta_certs ta_groups]; [now apply add_sorted|apply add_in; auto| |].
    + rewrite put_ids. cbn [map tg_id]. constructor; [|exact Ids]. intro J. apply in_map_iff in J as (g & Q & X). rewrite <- Q in F. rewrite (find_nodup _ _ Ids X) in F. discriminate.
    + intros g0 y0 I0 Y0. apply put_in in I0 as [->|[[<-|I0] _]]; [discriminate|discriminate|auto].
Qed.

(* ---- nothing undefined ---- *)
Definition small (p : Z) (a : anchors) : Prop := forall g y, In g (ta_groups a) -> tg_dyn g = Some y -> td_period y <= p /\ 0 < td_period y.
Lemma one_ok : forall p now d g l, 0 <= now -> now + p < 2 ^ 63 -> (forall y, tg_dyn g = Some y -> 0 < td_period y <= p) -> exists g' l', tg_refresh now d g l = Ok (g', l') /\ forall y, tg_dyn g' = Some y -> 0 < td_period y <= p.
Proof.
  intros p now d g l A B Hy. unfold tg_refresh. destruct (tg_dyn g) as [y|] eqn:Y; [|exists g, l; split; [reflexivity|intros y E; congruence]]. specialize (Hy y eq_refl). destruct (now <? td_expire y); [exists g, l; split; [reflexivity|]; intros y' E; rewrite Y in E; injection E as <-; exact Hy|].
  unfold tp_add. replace ((- 2 ^ 63 <=? now + td_period y) && (now + td_period y <? 2 ^ 63)) with true by lia. cbn [bind].
  destruct (load_certs _ _ _ _) as [[names old] l1]. destruct (drop_old old names l1) as [names2 l2]. do 2 eexists. split; [reflexivity|]. cbn [tg_dyn]. intros y' E. injection E as <-. exact Hy.
Qed.
Lemma refresh_ok : forall p ids now d a, 0 <= now -> now + p < 2 ^ 63 -> small p a -> exists a', refresh_ids now d ids a = Ok a' /\ small p a'.
Proof.
  intros p. induction ids as [|i ids IH]; intros now d a A B Sm; cbn [refresh_ids]; [eauto|]. destruct (tg_find i (ta_groups a)) as [g|] eqn:F; [|auto]. apply find_in in F as [F1 F2].
  destruct (one_ok p now d g (ta_certs a) A B) as (g' & l' & E & Hy); [intros y Y; destruct (Sm g y F1 Y); lia|]. rewrite E. cbn [bind fst snd]. apply IH; auto. intros g0 y0 I0 Y0. cbn [ta_groups] in I0. apply put_in in I0 as [->|[I0 _]]; [specialize (Hy _ Y0); lia|eauto].
Qed.
Lemma step_ok : forall p o a, fits p o -> small p a -> exists a' x, ta_step o a = Ok (a', x) /\ small p a'.
Proof.
  intros p o a [Ft Fp] Sm. destruct o as [i e|now d i path period|i n| |now d ord n|now d ord q]; cbn [ta_step].
  - do 2 eexists. split; [reflexivity|]. unfold ta_insert. destruct (tg_find i (ta_groups a)) as [g|] eqn:F.
    + rewrite F. destruct (tg_dyn g) as [y|] eqn:Y; cbn [fst]; [exact Sm|]. destruct (has_name _ _); cbn [fst]; [exact Sm|]. intros g0 y0 I0 Y0. cbn [ta_groups] in I0. apply put_in in I0 as [->|[I0 _]]; [discriminate|eauto].
    + unfold tg_find. cbn [List.find tg_id]. rewrite N.eqb_refl. cbn [tg_dyn has_name tg_names existsb fst]. intros g0 y0 I0 Y0. cbn [ta_groups] in I0. apply put_in in I0 as [->|[[<-|I0] _]]; [discriminate|discriminate|eauto].
  - unfold ta_insertDyn. destruct (existsb _ _); [do 2 eexists; split; [reflexivity|exact Sm]|]. destruct (Z.leb_spec period 0) as [L|L]; [do 2 eexists; split; [reflexivity|exact Sm]|].
    destruct (Ft now d) as [A B]; [cbn; auto|]. destruct (one_ok p now d (mkTG i [] (Some (mkTD path period 0))) (ta_certs a) A B) as (g' & l' & E & Hy); [intros y Y; injection Y as <-; cbn; lia|].
    rewrite E. cbn [bind fst snd]. do 2 eexists. split; [reflexivity|]. intros g0 y0 [<-|I0] Y0; [specialize (Hy _ Y0); lia|eauto].
  - do 2 eexists. split; [reflexivity|]. unfold ta_remove. destruct (tg_find i (ta_groups a)) as [g|] eqn:F; [|exact Sm]. destruct (tg_dyn g) as [y|] eqn:Y; [exact Sm|]. cbn [fst]. intros g0 y0 I0 Y0. cbn [ta_groups] in I0. apply put_in in I0 as [->|[I0 _]]; [discriminate|eauto].
  - do 2 eexists. split; [reflexivity|]. intros g0 y0 [].
  - destruct (Ft now d) as [A B]; [cbn; auto|]. unfold ta_findName, ta_refresh. destruct (refresh_ok p (ord ++ map tg_id (ta_groups a)) now d a A B Sm) as (a' & E & Sm'). rewrite E. cbn [bind fst snd]. eauto.
  - destruct (Ft now d) as [A B]; [cbn; auto|]. unfold ta_findInterest, ta_refresh. destruct (refresh_ok p (ord ++ map tg_id (ta_groups a)) now d a A B Sm) as (a' & E & Sm'). rewrite E. cbn [bind fst snd]. eauto.
Qed.
Lemma run_ok : forall p l a, Forall (fits p) l -> small p a -> exists a' outs, ta_run l a = Ok (a', outs) /\ small p a' /\ length outs = length l.
Proof.
  intros p. induction l as [|o l IH]; intros a F Sm; cbn [ta_run]; [eauto|]. inversion F as [|? ? F1 F2]; subst. destruct (step_ok p o a F1 Sm) as (a1 & x & E & Sm1). rewrite E. cbn [bind fst snd].
  destruct (IH a1 F2 Sm1) as (a2 & xs & E2 & Sm2 & Ln). rewrite E2. cbn [bind fst snd]. do 2 eexists. splits; eauto. cbn [length]. congruence.
Qed.

(* ---- one dynamic group and nothing else ---- *)
Record solo (path : N) (period : Z) (upto : Z) (d : disk) (a : anchors) : Prop := {
  so_group : exists i ns, ta_groups a = [mkTG i ns (Some (mkTD path period upto))] /\ (forall n, In n ns <-> on_disk d path n);
  so_sorted : csorted (ta_certs a);
  so_names : forall n, (exists c, In c (ta_certs a) /\ ct_name c = n) <-> on_disk d path n }.
Lemma solo_refresh : forall path period upto d now d' ord a a', solo path period upto d a -> 0 < period -> ta_refresh now d' ord a = Ok a' ->
  (now < upto -> solo path period upto d a') /\ (upto <= now -> solo path period (now + period) d' a').
Proof.
  intros path period upto d now d' ord a a' [(i & ns & G & Nm) S C] P H. unfold ta_refresh in H.
  assert (Early : forall ids a0 i0 ns0 u0, ta_groups a0 = [mkTG i0 ns0 (Some (mkTD path period u0))] -> now < u0 -> refresh_ids now d' ids a0 = Ok a' -> a' = a0).
  { induction ids as [|j ids IH]; intros a0 i0 ns0 u0 G0 L R; cbn [refresh_ids] in R; [congruence|]. rewrite G0 in R. unfold tg_find in R. cbn [List.find tg_id] in R. destruct (N.eqb_spec i0 j) as [Q|Q]; [|eapply IH; eauto].
    unfold tg_refresh in R. cbn [tg_dyn td_expire] in R. destruct (Z.ltb_spec now u0); [|lia]. cbn [bind fst snd] in R. unfold tg_put in R. cbn [map tg_id] in R. rewrite N.eqb_refl in R. rewrite <- G0 in R. destruct a0 as [gs cs]. cbn [ta_groups ta_certs] in *. eapply IH; eauto. }
  split; intro L.
  - assert (a' = a) by (eapply Early; eauto). subst a'. constructor; eauto.
  - assert (Gen : forall ids, In i ids -> refresh_ids now d' ids a = Ok a' -> solo path period (now + period) d' a').
    { induction ids as [|j ids IH]; intros I R; [destruct I|]. cbn [refresh_ids] in R. rewrite G in R. unfold tg_find in R. cbn [List.find tg_id] in R. destruct (N.eqb_spec i j) as [Q|Q].
      - destruct (tg_refresh now d' _ (ta_certs a)) as [[g' l']|] eqn:T; cbn [bind fst snd] in R; [|discriminate]. destruct (reload_spec now d' (mkTG i ns (Some (mkTD path period upto))) _ (mkTD path period upto) _ _ S eq_refl L T) as (Ei & Ey & S' & Nm' & Fr & Keep & Gone & New). cbn [tg_id td_path td_period tg_names] in *.
        assert (Put : tg_put g' [mkTG i ns (Some (mkTD path period upto))] = [g']) by (unfold tg_put; cbn [map tg_id]; rewrite Ei, N.eqb_refl; reflexivity). rewrite Put in R.
        destruct g' as [i' ns' y']. cbn [tg_id tg_dyn tg_names] in *. subst i' y'. assert (E : a' = mkTA [mkTG i ns' (Some (mkTD path period (now + period)))] l') by (eapply Early; [reflexivity| |exact R]; lia). subst a'.
        constructor; cbn [ta_groups ta_certs]; [eauto|exact S'|]. intro n. split.
        + intros (c & Ic & <-). destruct (Fr _ Ic) as [X|X]; [|exists c; auto]. assert (Z : In (ct_name c) ns) by (apply Nm; apply C; eauto). destruct (Gone _ Ic); [contradiction|assumption].
        + intro Od. assert (De : (In n ns) \/ ~ In n ns) by (destruct (has_name n ns) eqn:Hn; [left; now apply has_iff|right; intro X; apply has_iff in X; congruence]). destruct De as [De|De]; [|auto]. apply Nm, C in De. destruct De as (c & Ic & <-). exists c. split; [|reflexivity]. apply Keep; auto.
      - destruct I as [I|I]; [congruence|]. apply IH; [exact I|exact R]. }
    apply (Gen (ord ++ map tg_id (ta_groups a))); [|exact H]. apply in_or_app. right. rewrite G. now left.
Qed.

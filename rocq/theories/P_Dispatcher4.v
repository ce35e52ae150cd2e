(* Proofs about the dispatcher, part 4: a FIFO storage keeps the last packets inserted. *)
From Coq Require Import ZArith Lia ZifyBool ZifyNat ZifyN.
From Verif Require Import Base BaseLemmas M_Tlv M_Name S_Name M_Ims S_Ims P_Ims P_ImsI P_ImsT T_Ims M_StatusDataset M_Dispatcher S_Dispatcher P_Dispatcher P_Dispatcher2.
Open Scope N_scope.

Lemma run_snoc_inv : forall ops op m m' h, im_run (ops ++ [op]) m = Ok (m', h) ->
  exists m1 h1 o, im_run ops m = Ok (m1, h1) /\ im_step op m1 = Ok (m', o) /\ h = h1 ++ o.
Proof.
  induction ops as [|a ops IH]; intros op m m' h H; cbn in H.
  - destruct (im_step op m) as [[m1 o]|e] eqn:E; [|discriminate]. cbn in H. injection H as <- <-. exists m, [], o. rewrite app_nil_r. auto.
  - destruct (im_step a m) as [[m1 o]|e] eqn:E; [|discriminate]. cbn [bind fst snd] in H. destruct (im_run (ops ++ [op]) m1) as [[m2 h2]|e] eqn:E2; [|discriminate].
    cbn [bind fst snd] in H. injection H as <- <-. destruct (IH _ _ _ _ E2) as (m3 & h3 & o3 & A & B & ->). exists m3, (o ++ h3), o3. cbn. rewrite E. cbn [bind fst snd]. rewrite A. cbn. splits; auto. now rewrite app_assoc.
Qed.
Lemma usable_prefix : forall pol L a b, usable pol L (a ++ b) -> usable pol L a.
Proof. intros pol L a b (A & B & C). unfold usable. splits; auto. rewrite nlen_app in C. lia. Qed.

(* logs *)
Lemma evictItem_log : forall s b s' o, im_evictItem s = Ok (b, s', o) -> exists ev, o = map OEvict ev.
Proof.
  intros s b s' o H. unfold im_evictItem in H.
  destruct (im_policy s); try (injection H as _ _ <-; exists []; reflexivity); (destruct (im_index s) as [|[p n] l]; [injection H as _ _ <-; exists []; reflexivity|]);
    (destruct (List.find _ _) as [e|]; [|discriminate]); injection H as _ _ <-; exists [en_full e]; reflexivity.
Qed.
Lemma evictLoop_log : forall fuel a s s' o, im_evictLoop fuel a s = Ok (s', o) -> exists ev, o = map OEvict ev.
Proof.
  induction fuel as [|fuel IH]; intros a s s' o H; cbn in H; destruct (im_n s <=? im_cap s); try (injection H as _ <-; exists []; reflexivity); try discriminate.
  destruct (im_evictItem s) as [[[b s1] o1]|e] eqn:E; [|discriminate]. destruct (evictItem_log _ _ _ _ E) as [ev1 ->]. destruct b; [|destruct (a - 1 <? 0)%Z; [discriminate|]];
    (destruct (im_evictLoop fuel _ s1) as [[s2 o2]|e] eqn:E2; [|discriminate]); cbn in H; injection H as _ <-; destruct (IH _ _ _ _ E2) as [ev2 ->]; exists (ev1 ++ ev2); rewrite map_app; reflexivity.
Qed.
Lemma setCapacity_log : forall c s s' o, im_setCapacity c s = Ok (s', o) -> exists ev, o = map OEvict ev.
Proof.
  intros c s s' o H. unfold im_setCapacity in H. destruct (im_evictLoop _ _ _) as [[s1 o1]|e] eqn:E; [|discriminate]. cbn [bind fst snd] in H. destruct (evictLoop_log _ _ _ _ _ E) as [ev ->]. exists ev.
  unfold im_assertSize in H. destruct (im_cap s <=? N.max c MIN_CAPACITY).
  - destruct (_ =? _) in H; [|discriminate]. injection H as _ <-. reflexivity.
  - destruct (Nat.ltb _ _); [discriminate|]. destruct (_ =? _) in H; [|discriminate]. injection H as _ <-. reflexivity.
Qed.
Lemma insert_log : forall p w s s' o, im_insert p w s = Ok (s', o) -> o = [] \/ exists ev, o = map OEvict ev ++ [OIns (pk_full p)].
Proof.
  intros p w s s' o H. unfold im_insert in H. destruct (im_lookup (pk_full p) s); [injection H as _ <-; auto|]. right.
  destruct (if im_isFull s && negb _ then _ else _) as [[s1 o1]|e] eqn:E1; [|discriminate]. cbn [bind fst snd] in H.
  destruct (if im_isFull s1 && _ then _ else _) as [[s2 o2]|e] eqn:E2; [|discriminate]. cbn [bind fst snd] in H.
  assert (X1 : exists ev, o1 = map OEvict ev).
  { destruct (im_isFull s && _); [exact (setCapacity_log _ _ _ _ E1)|injection E1 as _ <-; exists []; reflexivity]. }
  assert (X2 : exists ev, o2 = map OEvict ev).
  { destruct (im_isFull s1 && _); [|injection E2 as _ <-; exists []; reflexivity]. destruct (im_evictItem s1) as [[[b s3] o3]|e] eqn:E3; [|discriminate]. cbn in E2. injection E2 as _ <-. exact (evictItem_log _ _ _ _ E3). }
  destruct X1 as [ev1 ->], X2 as [ev2 ->]. destruct (im_free s2); [discriminate|]. injection H as _ <-. exists (ev1 ++ ev2). rewrite map_app, app_assoc. reflexivity.
Qed.
Definition ins_names (h : list iobs) : list (list key) := List.concat (map (fun o => match o with OIns f => [f] | _ => [] end) h).
Lemma ins_in : forall h f, In f (ins_names h) <-> In (OIns f) h.
Proof.
  induction h as [|o h IH]; intro f; cbn; [tauto|]. unfold ins_names in IH. rewrite in_app_iff, IH. destruct o as [g|g|g|g]; cbn; split; intros [X|X]; auto; try discriminate; try (destruct X; fail).
  - destruct X as [->|[]]. auto.
  - injection X as ->. auto.
Qed.
Lemma ins_app : forall a b, ins_names (a ++ b) = ins_names a ++ ins_names b.
Proof. intros a b. unfold ins_names. rewrite map_app, concat_app. reflexivity. Qed.
Lemma ins_evict : forall ev, ins_names (map OEvict ev) = [].
Proof. induction ev as [|f ev IH]; cbn; auto. Qed.
Lemma find_log : forall q s s' o c, im_findInterest q s = Ok (s', o, c) -> ins_names o = [].
Proof.
  intros q s s' o c H. unfold im_findInterest in H. destruct (im_lookup _ _); [injection H as _ <- _; reflexivity|]. destruct (im_lower _ _) as [bef [|e l]]; [injection H as _ <- _; reflexivity|].
  destruct (im_selectChild _ _); [|injection H as _ <- _; reflexivity]. unfold found in H. destruct (im_afterAccess _ _); [|discriminate]. injection H as _ <- _. reflexivity.
Qed.
Lemma findName_log : forall q s s' o c, im_findName q s = Ok (s', o, c) -> ins_names o = [].
Proof.
  intros q s s' o c H. unfold im_findName in H. destruct (snd _) as [|e l]; [injection H as _ <- _; reflexivity|]. destruct (prefixb _ _); [|injection H as _ <- _; reflexivity].
  unfold found in H. destruct (im_afterAccess _ _); [|discriminate]. injection H as _ <- _. reflexivity.
Qed.

(* what one operation other than erase does to what is stored *)
Lemma stale_stored : forall p s, stored (im_stale p s) = stored s.
Proof. intros p s. unfold stored, im_stale. cbn. rewrite map_map. apply map_ext. intro e. destruct (_ && _); reflexivity. Qed.
Lemma step_stored : forall L sched ops op s s' h o, usable FIFO L (ops ++ [op]) -> reached FIFO sched L ops s h -> im_step op s = Ok (s', o) ->
  (forall n b, op <> IErase n b) -> (forall p w, op <> IInsert p w) -> stored s' = stored s /\ ins_names o = [].
Proof.
  intros L sched ops op s s' h o U R H NE NI. assert (U1 := usable_prefix _ _ _ _ U). destruct (reached_Inv _ _ _ _ _ _ U1 R) as (I & _).
  assert (K : nlen ops < 2 ^ 60) by apply U1. destruct op as [p w|n|q|n b|p]; cbn in H.
  - exfalso. exact (NI p w eq_refl).
  - destruct (findName_spec _ _ _ n I K) as (s1 & o1 & c & A & _ & C & _). rewrite A in H. injection H as <- <-. split; [unfold stored; now rewrite C|exact (findName_log _ _ _ _ _ A)].
  - destruct (findInterest_spec _ _ _ q I K) as (s1 & o1 & c & A & _ & C & _). rewrite A in H. injection H as <- <-. split; [unfold stored; now rewrite C|exact (find_log _ _ _ _ _ A)].
  - exfalso. exact (NE n b eq_refl).
  - injection H as <- <-. split; [apply stale_stored|reflexivity].
Qed.
Lemma inserted_app : forall a b, inserted (a ++ b) = inserted a ++ inserted b.
Proof. intros a b. unfold inserted. rewrite map_app, concat_app. reflexivity. Qed.
Lemma stored_inserted : forall L sched ops s h, usable FIFO L ops -> reached FIFO sched L ops s h -> no_erase ops ->
  forall p, In p (stored s) -> In p (inserted ops).
Proof.
  intros L sched ops. induction ops as [|op ops IH] using rev_ind; intros s h U R NE p Hp.
  - unfold reached in R. cbn in R. injection R as <- _. destruct Hp.
  - destruct (run_snoc_inv _ _ _ _ _ R) as (s1 & h1 & o & R1 & H & ->). assert (U1 := usable_prefix _ _ _ _ U). rewrite inserted_app. apply in_or_app.
    assert (NE1 : no_erase ops) by (intros n b X; apply (NE n b); apply in_or_app; left; exact X).
    destruct op as [p0 w|n|q|n b|p0].
    + destruct (C30_insert_partial _ _ _ _ _ _ p0 w U1 R1) as (s' & o' & A & _ & B). cbn in H. rewrite A in H. injection H as <- <-. cbn.
      assert (X : p = p0 \/ In p (stored s1)) by (destruct B as [[_ B]|(_ & _ & _ & v & _ & B)]; apply B in Hp; tauto). destruct X as [->|X]; [right; left; reflexivity|left]. exact (IH _ _ U1 R1 NE1 _ X).
    + left. destruct (step_stored _ _ _ _ _ _ _ _ U R1 H) as [E _]; try (intros; discriminate). rewrite E in Hp. exact (IH _ _ U1 R1 NE1 _ Hp).
    + left. destruct (step_stored _ _ _ _ _ _ _ _ U R1 H) as [E _]; try (intros; discriminate). rewrite E in Hp. exact (IH _ _ U1 R1 NE1 _ Hp).
    + exfalso. apply (NE n b). apply in_or_app. right. left. reflexivity.
    + left. destruct (step_stored _ _ _ _ _ _ _ _ U R1 H) as [E _]; try (intros; discriminate). rewrite E in Hp. exact (IH _ _ U1 R1 NE1 _ Hp).
Qed.
Lemma stored_nodup : forall k h s, Inv k h s -> NoDup (map pk_full (stored s)).
Proof.
  intros k h s I. assert (S0 := i_sorted _ _ _ I). unfold stored. rewrite map_map. fold (map en_full (im_cache s)). clear I.
  induction (im_cache s) as [|e l IH]; cbn; [constructor|]. apply sorted_cons in S0 as [S1 S2]. constructor; [|apply IH; exact S1].
  intro X. apply in_map_iff in X as (y & E & Y). rewrite Forall_forall in S2. specialize (S2 _ Y). unfold elt in S2. apply names_ltb_lt in S2.
  fold (en_full e) (en_full y) in *. rewrite E in S2. assert (Z : names_ltb (en_full e) (en_full e) = false) by (apply names_ltb_ge; left; reflexivity). congruence.
Qed.
Lemma evicts_present : forall ev h f, present (h ++ map OEvict ev) f <-> present h f /\ ~ In f ev.
Proof.
  induction ev as [|g ev IH] using rev_ind; intros h f; cbn; [rewrite app_nil_r; tauto|]. rewrite map_app, app_assoc. cbn [map].
  rewrite (present_del _ g f (OEvict g)) by (right; reflexivity). rewrite IH, in_app_iff. cbn. intuition congruence.
Qed.
Lemma suffix_of : forall (A : Type) (a b c d : list A) x, a ++ b = c ++ x :: d -> ~ In x b -> exists e, d = e ++ b.
Proof.
  intros A a. induction a as [|y a IH]; intros b c d x E N; cbn in E.
  - exfalso. apply N. rewrite E. apply in_or_app. right. left. reflexivity.
  - destruct c as [|z c]; cbn in E; injection E as -> E.
    + exists a. auto.
    + exact (IH _ _ _ _ E N).
Qed.
Lemma retain : forall L sched ops1 p w ops2 s1 h1 s h, usable FIFO L (ops1 ++ IInsert p w :: ops2) -> reached FIFO sched L ops1 s1 h1 -> ~ In p (stored s1) ->
  reached FIFO sched L (ops1 ++ IInsert p w :: ops2) s h -> no_erase ops2 -> nlen (inserted ops2) < L ->
  In p (stored s) /\ exists hp hq, h = hp ++ OIns (pk_full p) :: hq /\ nlen (ins_names hq) <= nlen (inserted ops2).
Proof.
  intros L sched ops1 p w ops2 s1 h1. induction ops2 as [|op ops2 IH] using rev_ind; intros s h U R1 NP R NE LT.
  - destruct (run_snoc_inv _ _ _ _ _ R) as (s1' & h1' & o & R1' & H & ->). unfold reached in R1. rewrite R1 in R1'. injection R1' as <- <-. assert (U1 := usable_prefix _ _ _ _ U).
    destruct (C30_insert_partial _ _ _ _ _ _ p w U1 R1) as (s' & o' & A & B & _). cbn in H. rewrite A in H. injection H as <- <-. split; auto.
    destruct (C34_log_insert _ _ _ _ _ _ _ _ _ _ U1 R1 A) as [_ X]. destruct (X NP) as [o1 ->]. exists (h1 ++ o1), []. split; [now rewrite <- app_assoc|]. vm_compute. discriminate.
  - assert (EQ : ops1 ++ IInsert p w :: (ops2 ++ [op]) = (ops1 ++ IInsert p w :: ops2) ++ [op]) by (rewrite <- app_assoc; reflexivity). rewrite EQ in R. destruct (run_snoc_inv _ _ _ _ _ R) as (s2 & h2 & o & R2 & H & ->).
    assert (U0 : usable FIFO L ((ops1 ++ IInsert p w :: ops2) ++ [op])) by (rewrite <- EQ; exact U). assert (U2 := usable_prefix _ _ _ _ U0).
    assert (NE2 : no_erase ops2) by (intros n b X; apply (NE n b); apply in_or_app; left; exact X).
    assert (LT2 : nlen (inserted ops2) < L) by (rewrite inserted_app, nlen_app in LT; lia).
    destruct (IH _ _ U2 R1 NP R2 NE2 LT2) as (IN & hp & hq & -> & LQ).
    assert (OTHER : (forall n b, op <> IErase n b) -> (forall p w, op <> IInsert p w) -> In p (stored s) /\ exists hp0 hq0, (hp ++ OIns (pk_full p) :: hq) ++ o = hp0 ++ OIns (pk_full p) :: hq0 /\ nlen (ins_names hq0) <= nlen (inserted (ops2 ++ [op]))).
    { intros A B. destruct (step_stored _ _ _ _ _ _ _ _ U0 R2 H A B) as [-> E]. split; auto. exists hp, (hq ++ o). split; [now rewrite <- app_assoc|]. rewrite ins_app, E, app_nil_r, inserted_app, nlen_app. lia. }
    destruct op as [x wx|n|q|n b|e]; try (apply OTHER; intros; discriminate); [|exfalso; apply (NE n b); apply in_or_app; right; left; reflexivity]. clear OTHER. cbn in H.
    assert (LG := insert_log _ _ _ _ _ H).
    assert (LEN : nlen (inserted (ops2 ++ [IInsert x wx])) = nlen (inserted ops2) + 1) by (rewrite inserted_app, nlen_app; reflexivity).
    split.
    2:{ exists hp, (hq ++ o). split; [now rewrite <- app_assoc|]. rewrite ins_app, nlen_app, LEN. destruct LG as [->|[ev ->]]; [change (nlen (ins_names [])) with 0; lia|]. rewrite ins_app, ins_evict. change (nlen ([] ++ ins_names [OIns (pk_full x)])) with 1. lia. }
    destruct (C30_insert_partial _ _ _ _ _ _ x wx U2 R2) as (s' & o' & A & _ & B). rewrite A in H. injection H as <- <-.
    destruct B as [[_ B]|(NX & CL & _ & v & Hv & B)]; [apply B; auto|]. apply B. right. split; auto. intros <-.
    (* p would be the packet evicted *)
    destruct (C34_log_insert _ _ _ _ _ _ _ _ _ _ U2 R2 A) as [_ X]. specialize (X NX).
    destruct LG as [->|[ev ->]]; [destruct X as [z X]; destruct z; discriminate|]. clear X.
    set (h2 := hp ++ OIns (pk_full p) :: hq) in *.
    assert (U3 : usable FIFO L ((ops1 ++ IInsert p w :: ops2) ++ [IInsert x wx])) by exact U0.
    assert (PR := C34_log_present _ _ _ _ _ _ (pk_full p) U3 R). assert (PR2 := C34_log_present _ _ _ _ _ _ (pk_full p) U2 R2).
    assert (XP : x <> p) by (intros ->; exact (NX IN)).
    assert (INEV : In (pk_full p) ev).
    { destruct (in_dec (list_eq_dec (fun a b : key => ltac:(decide equality; [apply (list_eq_dec Byte.byte_eq_dec)|apply N.eq_dec]))) (pk_full p) ev) as [Z|Z]; auto. exfalso.
      assert (Q : present (h2 ++ map OEvict ev ++ [OIns (pk_full x)]) (pk_full p)).
      { rewrite app_assoc. apply present_ins. right. apply evicts_present. split; auto. apply PR2. exists p. auto. }
      apply PR in Q as (y & Y1 & Y2). apply pk_full_inj in Y2. subst y. apply B in Y1 as [Y1|[_ Y1]]; auto. }
    destruct ev as [|g ev]; [destruct INEV|].
    assert (VG : victim FIFO h2 g) by (apply (C34_victim_partial _ _ _ _ _ _ _ _ (map OEvict ev ++ [OIns (pk_full x)]) U3 R); reflexivity).
    assert (G : g = pk_full p).
    { destruct VG as [PG _]. apply (C34_log_present _ _ _ _ _ _ g U2 R2) in PG as (y & Y1 & <-). f_equal.
      destruct (list_eq_dec (fun a b : key => ltac:(decide equality; [apply (list_eq_dec Byte.byte_eq_dec)|apply N.eq_dec])) (pk_full y) (pk_full p)) as [Z|Z]; [apply pk_full_inj; exact Z|exfalso].
      assert (Q : In y (stored s')) by (apply B; right; split; auto; intros ->; auto).
      assert (Q' : present (h2 ++ map OEvict (pk_full y :: ev) ++ [OIns (pk_full x)]) (pk_full y)) by (apply (C34_log_present _ _ _ _ _ _ _ U3 R); exists y; auto).
      rewrite app_assoc in Q'. apply present_ins in Q' as [Q'|Q'].
      - apply pk_full_inj in Q'. subst y. exact (NX Y1).
      - apply evicts_present in Q' as [_ Q']. apply Q'. left. reflexivity. }
    subst g. destruct VG as [_ VG].
    assert (SUB : forall f, In f (remv (pk_full p) (map pk_full (stored s2))) -> In f (ins_names hq)).
    { intros f Hf. apply remv_in in Hf as [Hf NF]. apply in_map_iff in Hf as (y & <- & Hy). assert (PY : present h2 (pk_full y)) by (apply (C34_log_present _ _ _ _ _ _ _ U2 R2); exists y; auto).
      specialize (VG _ PY NF). destruct VG as (ha & hb & E & NB & o & Ho & ->). unfold h2 in E. symmetry in E. destruct (suffix_of _ _ _ _ _ _ E) as [z ->]; [intro Z; exact (NB _ Z eq_refl)|].
      apply ins_in. apply in_or_app. right. exact Ho. }
    destruct (reached_Inv _ _ _ _ _ _ U2 R2) as (I2 & _). assert (ND := stored_nodup _ _ _ I2).
    assert (LL : (List.length (remv (pk_full p) (map pk_full (stored s2))) + 1 = List.length (map pk_full (stored s2)))%nat).
    { assert (IP : In (pk_full p) (map pk_full (stored s2))) by (apply in_map; exact IN). revert ND IP. generalize (map pk_full (stored s2)) as l. clear. unfold remv. induction l as [|y l IH]; intros ND IP; [destruct IP|]. inversion ND; subst. cbn.
      destruct (names_eqb y (pk_full p)) eqn:E; cbn.
      - apply names_eqb_eq in E. subst y. fold (remv (pk_full p) l). rewrite remv_notin by assumption. lia.
      - destruct IP as [->|IP]; [rewrite names_eqb_refl in E; discriminate|]. rewrite IH by assumption. reflexivity. }
    assert (NI : NoDup (remv (pk_full p) (map pk_full (stored s2)))) by (unfold remv; apply NoDup_filter; exact ND).
    assert (LE := NoDup_incl_length NI SUB). rewrite map_length in LL. unfold count in CL. rewrite LEN in LT. unfold nlen in CL, LQ, LT. lia.
Qed.

From Coq Require Import Lia ZifyBool ZifyNat ZifyN.
From Verif Require Import Base BaseLemmas M_Transform S_Transform.
Open Scope N_scope.

(* ---- the functions on whole inputs ---- *)
Definition pairb (a b : byte) : option byte := match C2H a, C2H b with Some h, Some l => Some (nb (16 * h + l)) | _, _ => None end.
Fixpoint hstream (x : bytes) : option (bytes * option byte) :=
  match x with
  | [] => Some ([], None)
  | [a] => Some ([], Some a)
  | a :: b :: r => match pairb a b, hstream r with Some v, Some (o, q) => Some (v :: o, q) | _, _ => None end
  end.
Definition tstream (k : tkind) (x : bytes) : option (bytes * option byte) :=
  match k with
  | HexEncode u => Some (toHex u x, None)
  | StripSpace ws => Some (filter (fun c => negb (ws c)) x, None)
  | HexDecode => hstream x
  end.
Lemma pair_ind : forall (P : bytes -> Prop), P [] -> (forall a, P [a]) -> (forall a b r, P r -> P (a :: b :: r)) -> forall x, P x.
Proof.
  intros P P0 P1 P2. assert (X : forall x, P x /\ forall a, P (a :: x)) by (induction x as [|b x [I1 I2]]; split; auto; destruct x; auto).
  intro x. apply X.
Qed.
Lemma hex_pair_b : forall a b, hex_pair a b = match pairb a b with Some v => Ok v | None => Err ERuntime end.
Proof. intros a b. unfold hex_pair, pairb. destruct (C2H a), (C2H b); reflexivity. Qed.
Lemma hex_pairs_stream : forall x, match hstream x with Some (o, _) => hex_pairs x = Ok o | None => hex_pairs x = Err ERuntime end.
Proof.
  apply pair_ind; [reflexivity|reflexivity|]. intros a b r IH. cbn [hstream hex_pairs]. rewrite hex_pair_b. destruct (pairb a b); [|reflexivity]. cbn [bind].
  destruct (hstream r) as [[o q]|]; rewrite IH; reflexivity.
Qed.
Lemma hstream_odd : forall x o q, hstream x = Some (o, q) -> q = if nlen x mod 2 =? 1 then Some (last x x00) else None.
Proof.
  apply (pair_ind (fun x => forall o q, hstream x = Some (o, q) -> q = if nlen x mod 2 =? 1 then Some (last x x00) else None)).
  - intros o q [= <- <-]. reflexivity.
  - intros a o q [= <- <-]. reflexivity.
  - intros a b r IH o q H. cbn [hstream] in H. destruct (pairb a b); [|discriminate]. destruct (hstream r) as [[o' q']|]; [|discriminate]. injection H as <- <-.
    rewrite (IH _ _ eq_refl), !nlen_cons. replace (1 + (1 + nlen r)) with (nlen r + 1 * 2) by lia. rewrite N.mod_add by lia.
    destruct (N.eqb_spec (nlen r mod 2) 1) as [M|M]; [|reflexivity]. destruct r; [vm_compute in M; discriminate|reflexivity].
Qed.
Lemma hstream_app : forall x o q b, hstream x = Some (o, q) ->
  hstream (x ++ b) = match hstream (match q with Some a => [a] | None => [] end ++ b) with Some (o', q') => Some (o ++ o', q') | None => None end.
Proof.
  apply (pair_ind (fun x => forall o q b, hstream x = Some (o, q) -> hstream (x ++ b) = match hstream (match q with Some a => [a] | None => [] end ++ b) with Some (o', q') => Some (o ++ o', q') | None => None end)).
  - intros o q b [= <- <-]. cbn [app]. now destruct (hstream b) as [[? ?]|].
  - intros a o q b [= <- <-]. cbn [app]. now destruct (hstream (a :: b)) as [[? ?]|].
  - intros a c r IH o q b H. cbn [hstream] in H. destruct (pairb a c) eqn:P; [|discriminate]. destruct (hstream r) as [[o' q']|]; [|discriminate]. injection H as <- <-.
    change ((a :: c :: r) ++ b) with (a :: c :: (r ++ b)). cbn [hstream]. rewrite P, (IH _ _ b eq_refl). destruct (hstream (_ ++ b)) as [[? ?]|]; reflexivity.
Qed.
Lemma toBytes_stream : forall q b, b <> [] -> match hstream (match q with Some a => [a] | None => [] end ++ b) with Some (o, _) => toBytes q b = Ok o | None => toBytes q b = Err ERuntime end.
Proof.
  intros [a|] b NE; cbn [app toBytes]; [|apply hex_pairs_stream]. destruct b as [|c b]; [contradiction|]. cbn [hstream]. rewrite hex_pair_b.
  destruct (pairb a c); [|reflexivity]. cbn [bind]. pose proof (hex_pairs_stream b) as H. destruct (hstream b) as [[o q]|]; rewrite H; reflexivity.
Qed.
Lemma tstream_app : forall k x y q b, tstream k x = Some (y, q) -> tstream k (x ++ b) = None \/ exists y' q', tstream k (x ++ b) = Some (y ++ y', q').
Proof.
  intros [u| |ws] x y q b H; cbn [tstream] in *.
  - injection H as <- <-. right. exists (toHex u b), None. unfold toHex. now rewrite flat_map_app.
  - rewrite (hstream_app _ _ _ b H). destruct (hstream (_ ++ b)) as [[o q']|]; eauto.
  - injection H as <- <-. right. exists (filter (fun c => negb (ws c)) b), None. now rewrite filter_app.
Qed.
Lemma tstream_none : forall k x b, tstream k x = None -> tstream k (x ++ b) = None.
Proof.
  intros [u| |ws] x b H; cbn [tstream] in *; try discriminate. revert x H. apply (pair_ind (fun x => hstream x = None -> hstream (x ++ b) = None)); try discriminate.
  intros a c r IH H. change ((a :: c :: r) ++ b) with (a :: c :: (r ++ b)). cbn [hstream] in *. destruct (pairb a c); [|reflexivity].
  destruct (hstream r) as [[? ?]|]; [discriminate|]. now rewrite (IH eq_refl).
Qed.
(* convert *)
Lemma convert_stream : forall t b x y, tstream (t_kind t) x = Some (y, t_odd t) -> t_out t = [] ->
  match tstream (t_kind t) (x ++ b) with
  | None => t_convert b t = (t, Err ERuntime)
  | Some (y', q') => exists t', t_convert b t = (t', Ok (nlen b)) /\ y' = y ++ t_out t' /\ q' = t_odd t' /\ t_kind t' = t_kind t /\ t_end t' = t_end t
  end.
Proof.
  intros [k odd out en] b x y H O. cbn [t_kind t_odd t_out] in *. subst out. destruct k as [u| |ws]; cbn [tstream] in *.
  - injection H as <- <-. eexists. split; [reflexivity|]. cbn. unfold toHex. rewrite flat_map_app. splits; auto.
  - rewrite (hstream_app _ _ _ b H). destruct b as [|c b].
    + assert (X : hstream (match odd with Some a => [a] | None => [] end ++ []) = Some ([], odd)) by (destruct odd; reflexivity). rewrite X. eexists. split; [reflexivity|]. cbn. splits; auto.
    + pose proof (toBytes_stream odd (c :: b)) as T. pose proof (hstream_odd (match odd with Some a => [a] | None => [] end ++ c :: b)) as OD.
      destruct (hstream (_ ++ c :: b)) as [[o q']|]; unfold t_convert; cbn [t_kind t_odd]; rewrite T by discriminate; [|reflexivity].
      eexists. split; [reflexivity|]. cbn [t_setOut t_out t_odd t_kind t_end]. splits; auto. rewrite (OD _ _ eq_refl), nlen_app.
      destruct odd as [a|]; cbn [app]; [rewrite nlen_cons, nlen_nil, N.add_comm; replace (nlen (c :: b) + (1 + 0)) with (nlen (c :: b) + 1) by lia|rewrite nlen_nil, N.add_comm]; reflexivity.
  - injection H as <- <-. eexists. split; [reflexivity|]. cbn. rewrite filter_app. splits; auto.
Qed.

(* ---- chains ---- *)
Fixpoint kinds (n : nat) : chain n -> list tkind := match n return chain n -> list tkind with O => fun _ => [] | S m => fun s => t_kind (fst s) :: kinds m (snd s) end.
Fixpoint live (n : nat) : chain n -> Prop := match n return chain n -> Prop with O => fun k => k_end k = false | S m => fun s => t_end (fst s) = false /\ live m (snd s) end.
Fixpoint flat (n : nat) : chain n -> Prop := match n return chain n -> Prop with O => fun _ => True | S m => fun s => t_out (fst s) = [] /\ flat m (snd s) end.
(* x has been accepted *)
Fixpoint acc (n : nat) : chain n -> bytes -> Prop :=
  match n return chain n -> bytes -> Prop with
  | O => fun k x => k_got k = x
  | S m => fun s x => exists y, acc m (snd s) y /\ tstream (t_kind (fst s)) x = Some (y ++ t_out (fst s), t_odd (fst s))
  end.
Fixpoint fails (ks : list tkind) (x : bytes) : Prop :=
  match ks with [] => False | k :: ks' => tstream k x = None \/ exists y q, tstream k x = Some (y, q) /\ fails ks' y end.
Lemma fails_app : forall ks x b, fails ks x -> fails ks (x ++ b).
Proof.
  induction ks as [|k ks IH]; intros x b H; [exact H|]. destruct H as [H|(y & q & H & F)].
  - left. now apply tstream_none.
  - destruct (tstream_app k x y q b H) as [X|(y' & q' & X)]; [now left|]. right. exists (y ++ y'), q'. split; auto.
Qed.

Definition shrinks (a b : list (option N)) : Prop := (length a < length b)%nat /\ (In None a -> In None b).
Definition weak (a b : list (option N)) : Prop := (length a <= length b)%nat /\ (In None a -> In None b).
Lemma weak_refl : forall a, weak a a.
Proof. intro a. split; auto. Qed.
Lemma weak_trans : forall a b c, weak a b -> weak b c -> weak a c.
Proof. intros a b c [A1 A2] [B1 B2]. split; auto; lia. Qed.
Lemma shrinks_weak : forall a b, shrinks a b -> weak a b.
Proof. intros a b [A1 A2]. split; auto; lia. Qed.
Definition write_ok {C} (sched : C -> list (option N)) (ks : C -> list tkind) (lv fl : C -> Prop) (ac : C -> bytes -> Prop) (w : C -> bytes -> C * res N) : Prop :=
  forall c x b c' r, ac c x -> lv c -> w c b = (c', r) -> ks c' = ks c /\ weak (sched c') (sched c) /\
  match r with
  | Ok m => lv c' /\ m <= nlen b /\ ac c' (x ++ ntake m b) /\ (m = nlen b \/ shrinks (sched c') (sched c)) /\ (fl c -> sched c = [] -> fl c')
  | Err e => e = ERuntime /\ (In None (sched c) \/ fails (ks c) (x ++ b))
  end.
Definition ch_ok (n : nat) : Prop := write_ok (ch_sched n) (kinds n) (live n) (flat n) (acc n) (ch_write n).

Lemma sink_ok : ch_ok 0.
Proof.
  intros [sched got en] x b c' r A L W. unfold acc in A. unfold live in L. cbn [k_got k_end] in *. subst. cbn [ch_write] in W. unfold sk_write in W. cbn [k_end k_sched k_got] in W.
  destruct sched as [|[m|] l]; injection W as <- <-; (split; [reflexivity|]); cbn [ch_sched k_sched].
  - split; [apply weak_refl|]. splits; auto; [reflexivity|lia|]. cbn. rewrite ntake_all by apply N.le_refl. reflexivity.
  - assert (SH : shrinks l (Some m :: l)) by (split; [cbn; lia|cbn; auto]). split; [now apply shrinks_weak|]. splits; auto; [reflexivity|lia|].
    cbn. destruct (N.le_ge_cases m (nlen b)); [now rewrite N.min_l by lia|]. rewrite N.min_r by exact H. rewrite (ntake_all m b) by exact H. rewrite (ntake_all (nlen b) b) by apply N.le_refl. reflexivity.
  - split; [split; [cbn; lia|cbn; auto]|]. split; auto. left. now left.
Qed.
Section Step.
Variable n : nat.
Hypothesis IH : ch_ok n.
Lemma flush_ok : forall t d x s' r, acc (S n) (t, d) x -> live n d -> t_flush (ch_write n) t d = (s', r) ->
  let (t', d') := s' in t_kind t' = t_kind t /\ t_odd t' = t_odd t /\ t_end t' = t_end t /\ kinds n d' = kinds n d /\ weak (ch_sched n d') (ch_sched n d) /\
  match r with
  | None => live n d' /\ acc (S n) (t', d') x /\ (t_out t' = [] \/ shrinks (ch_sched n d') (ch_sched n d)) /\ (flat n d -> ch_sched n d = [] -> flat n d')
  | Some e => e = ERuntime /\ (In None (ch_sched n d) \/ fails (t_kind t :: kinds n d) x)
  end.
Proof.
  intros t d x s' r (y & A & ST) L F. cbn [fst snd] in *. unfold t_flush, t_isEmpty in F. destruct (t_out t) as [|b0 o] eqn:O.
  - injection F as <- <-. splits; auto; [apply weak_refl|]. exists y. cbn [fst snd]. rewrite O. split; auto.
  - destruct (ch_write n d (b0 :: o)) as [d1 w] eqn:W. destruct (IH d y (b0 :: o) d1 w A L W) as (K & WK & R). destruct w as [m|e].
    + injection F as <- <-. destruct R as (L1 & LE & AC & SH & FL). splits; auto.
      * exists (y ++ ntake m (b0 :: o)). cbn [fst snd t_setOut t_kind t_odd t_out]. split; auto. now rewrite <- app_assoc, ntake_ndrop.
      * destruct SH as [->|SH]; [left|right; exact SH]. cbn [t_setOut t_out]. apply ndrop_all. lia.
    + injection F as <- <-. destruct R as [-> R]. splits; auto. destruct R as [R|R]; [now left|]. right. right. exists (y ++ b0 :: o), (t_odd t). split; auto.
Qed.
Lemma transform_ok : ch_ok (S n).
Proof.
  intros [t d] x b c' r A [L1 L2] W. cbn [ch_write] in W. unfold t_write in W. cbn [fst snd] in *. rewrite L1 in W.
  destruct (t_flush (ch_write n) t d) as [[t1 d1] f] eqn:F1. destruct (flush_ok _ _ _ _ _ A L2 F1) as (K1 & O1 & E1 & KD1 & WK1 & R1). cbn [ch_sched kinds fst snd].
  destruct f as [e|].
  { injection W as <- <-. destruct R1 as [-> R1]. cbn [fst snd]. rewrite K1, KD1. splits; auto. destruct R1 as [R1|R1]; [now left|right; now apply (fails_app (_ :: _))]. }
  destruct R1 as (LV1 & A1 & SH1 & FL1). unfold t_isEmpty in W. destruct (t_out t1) as [|b0 o] eqn:OE; cbn [negb] in W.
  - destruct A1 as (y & AD & ST). cbn [fst snd] in AD, ST. rewrite OE, app_nil_r in ST. pose proof (convert_stream t1 b x y ST OE) as CV. rewrite K1 in CV.
    destruct (tstream (t_kind t) (x ++ b)) as [[y' q']|] eqn:TS.
    + destruct CV as (t2 & CV & -> & -> & K2 & E2). rewrite CV in W. destruct (t_flush (ch_write n) t2 d1) as [[t3 d3] f3] eqn:F3.
      assert (A2 : acc (S n) (t2, d1) (x ++ b)) by (exists y; cbn [fst snd]; rewrite K2; auto).
      destruct (flush_ok _ _ _ _ _ A2 LV1 F3) as (K3 & O3 & E3 & KD3 & WK3 & R3). assert (WK : weak (ch_sched n d3) (ch_sched n d)) by (eapply weak_trans; eauto).
      destruct f3 as [e|]; injection W as <- <-; cbn [fst snd]; rewrite K3, K2, KD3, KD1.
      * destruct R3 as [-> R3]. rewrite K2, KD1 in R3. splits; auto. destruct R3 as [R3|R3]; [left; now apply WK1|right; exact R3].
      * destruct R3 as (LV3 & A3 & SH3 & FL3). splits; auto; [split; cbn [fst snd]; auto; congruence|lia|now rewrite ntake_all by lia|].
        intros [FA FB] SE. cbn [fst snd] in *. assert (SE1 : ch_sched n d1 = []) by (destruct WK1 as [X _]; rewrite SE in X; destruct (ch_sched n d1); [reflexivity|cbn in X; lia]).
        split; cbn [fst snd]; [|apply FL3; auto]. destruct SH3 as [SH3|[SH3 _]]; [exact SH3|rewrite SE1 in SH3; cbn in SH3; lia].
    + rewrite CV in W. injection W as <- <-. cbn [fst snd]. rewrite K1, KD1. splits; auto. right. left. exact TS.
  - injection W as <- <-. cbn [fst snd]. rewrite K1, KD1. destruct SH1 as [SH1|SH1]; [discriminate|]. splits; auto; [split; cbn [fst snd]; auto; congruence|lia| |].
    + cbn [ntake]. rewrite ntake_0, app_nil_r. exact A1.
    + intros [FA FB] SE. cbn [fst snd] in *. destruct SH1 as [X _]. rewrite SE in X. cbn in X. lia.
Qed.
Lemma flushAll_ok : forall fuel t d x s' r, acc (S n) (t, d) x -> live n d -> (length (ch_sched n d) < fuel)%nat -> t_flushAll (ch_write n) fuel t d = (s', r) ->
  let (t', d') := s' in t_kind t' = t_kind t /\ t_odd t' = t_odd t /\ kinds n d' = kinds n d /\ weak (ch_sched n d') (ch_sched n d) /\
  match r with
  | None => live n d' /\ acc (S n) (t', d') x /\ t_out t' = [] /\ (flat n d -> ch_sched n d = [] -> flat n d')
  | Some e => e = ERuntime /\ (In None (ch_sched n d) \/ fails (t_kind t :: kinds n d) x)
  end.
Proof.
  induction fuel as [|f IHf]; intros t d x s' r A L LF H; [lia|]. cbn [t_flushAll] in H. destruct (t_isEmpty t) eqn:E.
  - injection H as <- <-. splits; auto; [apply weak_refl|]. unfold t_isEmpty in E. now destruct (t_out t).
  - destruct (t_flush (ch_write n) t d) as [[t1 d1] x1] eqn:F. destruct (flush_ok _ _ _ _ _ A L F) as (K1 & O1 & E1 & KD1 & WK1 & R1). destruct x1 as [e|].
    + injection H as <- <-. splits; try apply R1; auto.
    + destruct R1 as (LV1 & A1 & SH1 & FL1). destruct SH1 as [OE|[SH1 _]].
      * assert (Z : t_flushAll (ch_write n) f t1 d1 = ((t1, d1), None)) by (destruct f; cbn [t_flushAll]; unfold t_isEmpty; rewrite OE; reflexivity).
        rewrite Z in H. injection H as <- <-. splits; auto.
      * specialize (IHf t1 d1 x s' r A1 LV1). destruct s' as [t' d']. destruct IHf as (I1 & I2 & I3 & I4 & I5); [lia|exact H|]. rewrite K1, KD1 in *. splits; try congruence.
        { eapply weak_trans; eauto. }
        destruct r as [e|]; [destruct I5 as [-> [X|X]]; splits; auto; left; now apply WK1|]. destruct I5 as (J1 & J2 & J3 & J4). splits; auto. intros FA SE. rewrite SE in SH1. cbn in SH1. lia.
Qed.
End Step.
Lemma chain_ok : forall n, ch_ok n.
Proof. induction n; [apply sink_ok|now apply transform_ok]. Qed.

(* ---- end ---- *)
Definition tfinal (k : tkind) (x : bytes) : option bytes := match tstream k x with Some (y, None) => Some y | _ => None end.
Fixpoint cfinal (ks : list tkind) (x : bytes) : option bytes := match ks with [] => Some x | k :: ks' => match tfinal k x with Some y => cfinal ks' y | None => None end end.
Lemma fails_final : forall ks x, fails ks x -> cfinal ks x = None.
Proof.
  induction ks as [|k ks IH]; intros x H; [destruct H|]. cbn [cfinal]. unfold tfinal. destruct H as [->|(y & q & -> & F)]; [reflexivity|]. destruct q; auto.
Qed.
Definition settled (n : nat) (c : chain n) : Prop := (flat n c /\ ch_sched n c = []) \/ ~ In HexDecode (kinds n c).
Lemma end_ok : forall n c x c' r, acc n c x -> live n c -> settled n c -> ch_end n c = (c', r) ->
  match r with
  | None => cfinal (kinds n c) x = Some (k_got (ch_sink n c')) /\ k_end (ch_sink n c') = true
  | Some e => e = ERuntime /\ (In None (ch_sched n c) \/ cfinal (kinds n c) x = None)
  end.
Proof.
  induction n as [|n IH]; intros c x c' r A L SE H.
  - cbn in H. injection H as <- <-. cbn in *. now subst.
  - destruct c as [t d]. destruct L as [L1 L2]. cbn [fst snd] in *. cbn [ch_end snd] in H. unfold t_endM in H. rewrite L1 in H. cbn [fst snd kinds ch_sched ch_sink] in *.
    unfold settled in SE. cbn [ch_sched snd kinds fst] in SE.
    set (t0 := mkT (t_kind t) (t_odd t) (t_out t) true) in *.
    assert (A0 : acc (S n) (t0, d) x) by exact A.
    assert (NEXT : forall t1 d1 d2 z, acc (S n) (t1, d1) x -> t_kind t1 = t_kind t -> t_odd t1 = None -> kinds n d1 = kinds n d -> live n d1 -> t_out t1 = [] -> weak (ch_sched n d1) (ch_sched n d) -> settled n d1 ->
              ch_end n d1 = (d2, z) -> match z with
              | None => cfinal (t_kind t :: kinds n d) x = Some (k_got (ch_sink n d2)) /\ k_end (ch_sink n d2) = true
              | Some e => e = ERuntime /\ (In None (ch_sched n d) \/ cfinal (t_kind t :: kinds n d) x = None)
              end).
    { intros t1 d1 d2 z (y & AY & ST) K1 O1 KD L3 OE WK SD EN. cbn [fst snd] in *. rewrite OE, app_nil_r, K1, O1 in ST. pose proof (IH d1 y d2 z AY L3 SD EN) as R. cbn [cfinal]. unfold tfinal. rewrite ST, <- KD.
      destruct z; [|exact R]. destruct R as [-> [R|R]]; split; auto. left. now apply WK. }
    destruct (match t_kind t, t_odd t with HexDecode, Some _ => ((t0, d), Some ERuntime) | HexDecode, None => ((t0, d), None) | _, _ => t_flushAll (ch_write n) (S (length (ch_sched n d))) t0 d end) as [[t1 d1] x1] eqn:M.
    assert (KC : t_kind t = HexDecode \/ t_flushAll (ch_write n) (S (length (ch_sched n d))) t0 d = ((t1, d1), x1)) by (destruct (t_kind t); auto).
    destruct KC as [KD|FA].
    + rewrite KD in M. destruct SE as [[FL SC]|NO]; [|exfalso; apply NO; left; auto]. destruct FL as [F1 F2]. cbn [fst snd] in *. destruct (t_odd t) eqn:OD.
      * injection M as <- <- <-. injection H as <- <-. split; auto. right. destruct A as (y & _ & ST). cbn [fst snd] in ST. cbn [cfinal]. unfold tfinal. rewrite ST, OD. reflexivity.
      * injection M as <- <- <-. destruct (ch_end n d) as [d2 z] eqn:EN. injection H as <- <-. cbn [snd].
        apply (NEXT t0 d d2 z); auto; [apply weak_refl|left; auto].
    + pose proof (flushAll_ok n (chain_ok n) _ _ _ _ _ _ A0 L2 (Nat.lt_succ_diag_r _) FA) as (K1 & O1 & KD1 & WK1 & R1). cbn [t0 t_kind t_odd] in K1, O1.
      destruct x1 as [e|].
      * injection H as <- <-. destruct R1 as [-> R1]. split; auto. destruct R1 as [R1|R1]; [now left|right]. apply (fails_final (_ :: _)). exact R1.
      * destruct R1 as (LV1 & A1 & OE & FL1). destruct (ch_end n d1) as [d2 z] eqn:EN. injection H as <- <-. cbn [snd].
        assert (KN : t_kind t <> HexDecode -> t_odd t = None).
        { intro KN. destruct A as (y & _ & ST). cbn [fst snd] in ST. destruct (t_kind t); cbn [tstream] in ST; try congruence. }
        destruct (t_kind t) eqn:KT; [| |].
        -- apply (NEXT t1 d1 d2 z); auto; [rewrite O1; now apply KN|]. destruct SE as [[FL SC]|NO]; [left|right].
           { destruct FL as [F1 F2]. cbn [fst snd] in *. split; [auto|]. destruct WK1 as [X _]. rewrite SC in X. destruct (ch_sched n d1); [reflexivity|cbn in X; lia]. }
           rewrite KD1. intro X. apply NO. now right.
        -- destruct (t_odd t) eqn:OD; [discriminate M|]. injection M as <- <-. apply (NEXT t0 d d2 z); auto. destruct SE as [[FL SC]|NO]; [left; destruct FL; auto|exfalso; apply NO; now left].
        -- apply (NEXT t1 d1 d2 z); auto; [rewrite O1; now apply KN|]. destruct SE as [[FL SC]|NO]; [left|right].
           { destruct FL as [F1 F2]. cbn [fst snd] in *. split; [auto|]. destruct WK1 as [X _]. rewrite SC in X. destruct (ch_sched n d1); [reflexivity|cbn in X; lia]. }
           rewrite KD1. intro X. apply NO. now right.
Qed.

(* ---- pump ---- *)
Lemma buffer_ok : forall n fuel c x b c' r, acc n c x -> live n c -> (length (ch_sched n c) < fuel)%nat -> bs_buffer n fuel c b = (c', r) ->
  kinds n c' = kinds n c /\ weak (ch_sched n c') (ch_sched n c) /\
  match r with
  | None => live n c' /\ acc n c' (x ++ b) /\ (flat n c -> ch_sched n c = [] -> flat n c')
  | Some e => e = ERuntime /\ (In None (ch_sched n c) \/ fails (kinds n c) (x ++ b))
  end.
Proof.
  intros n. induction fuel as [|f IH]; intros c x b c' r A L LF H; [lia|]. cbn [bs_buffer] in H. destruct b as [|b0 b].
  - injection H as <- <-. splits; auto; [apply weak_refl|now rewrite app_nil_r].
  - destruct (ch_write n c (b0 :: b)) as [c1 w] eqn:W. destruct (chain_ok n c x _ _ _ A L W) as (K & WK & R). destruct w as [m|e].
    + destruct R as (L1 & LE & A1 & SH & FL). destruct SH as [->|[SH SN]].
      * assert (Z : ndrop (nlen (b0 :: b)) (b0 :: b) = []) by (apply ndrop_all; apply N.le_refl). rewrite Z in H. rewrite ntake_all in A1 by apply N.le_refl.
        assert (H' : (c1, None) = (c', r)) by (destruct f; exact H). injection H' as <- <-. splits; auto.
      * assert (LF1 : (length (ch_sched n c1) < f)%nat) by lia. destruct (IH c1 _ _ c' r A1 L1 LF1 H) as (K2 & WK2 & R2). rewrite <- app_assoc, ntake_ndrop in R2. splits; try congruence; [eapply weak_trans; eauto|].
        destruct r as [e|]; [|destruct R2 as (X & Y & Z); splits; auto; intros FA SE; rewrite SE in SH; cbn in SH; lia].
        destruct R2 as [-> [R2|R2]]; splits; auto. right. now rewrite <- K.
    + injection H as <- <-. splits; auto; apply R.
Qed.
Lemma pump_ok : forall n bufs c x c' r, acc n c x -> live n c -> settled n c -> bs_pump n c bufs = (c', r) ->
  match r with
  | None => cfinal (kinds n c) (x ++ concat bufs) = Some (k_got (ch_sink n c')) /\ k_end (ch_sink n c') = true
  | Some e => e = ERuntime /\ (In None (ch_sched n c) \/ cfinal (kinds n c) (x ++ concat bufs) = None)
  end.
Proof.
  intros n. induction bufs as [|b bufs IH]; intros c x c' r A L SE H.
  - cbn [bs_pump concat] in *. rewrite app_nil_r. eapply end_ok; eauto.
  - cbn [bs_pump] in H. destruct (bs_buffer n _ c b) as [c1 x1] eqn:B. destruct (buffer_ok n _ c x b c1 x1 A L (Nat.lt_succ_diag_r _) B) as (K & WK & R). destruct x1 as [e|].
    + injection H as <- <-. destruct R as [-> [R|R]]; split; auto. right. apply fails_final. cbn [concat]. rewrite app_assoc. now apply fails_app.
    + destruct R as (L1 & A1 & FL). assert (SE1 : settled n c1).
      { destruct SE as [[F1 F2]|NO]; [left; split; auto; destruct WK as [X _]; rewrite F2 in X; destruct (ch_sched n c1); [reflexivity|cbn in X; lia]|right; now rewrite K]. }
      pose proof (IH c1 _ c' r A1 L1 SE1 H) as R. cbn [concat]. rewrite app_assoc, <- K. destruct r; [|exact R]. destruct R as [-> [R|R]]; split; auto. left. now apply WK.
Qed.
Lemma new_ok : forall ks sched, acc (length ks) (ch_new ks sched) [] /\ live _ (ch_new ks sched) /\ flat _ (ch_new ks sched) /\ ch_sched _ (ch_new ks sched) = sched /\ kinds _ (ch_new ks sched) = ks.
Proof.
  induction ks as [|k ks IH]; intro sched; [splits; reflexivity|]. destruct (IH sched) as (I1 & I2 & I3 & I4 & I5). cbn [length ch_new]. splits.
  - exists []. split; [exact I1|]. destruct k; reflexivity.
  - split; [reflexivity|exact I2].
  - split; [reflexivity|exact I3].
  - exact I4.
  - cbn [kinds fst snd]. now rewrite I5.
Qed.

(* ---- meaning ---- *)
Lemma C2H_digit : forall c d, C2H c = Some d <-> digit c d.
Proof.
  intros c d. unfold C2H. split.
  - destruct ((48 <=? bn c) && (bn c <=? 57)) eqn:E1; [intros [= <-]; apply dg_num; lia|].
    destruct ((65 <=? bn c) && (bn c <=? 70)) eqn:E2; [intros [= <-]; replace (bn c - 55) with (bn c - 65 + 10) by lia; apply dg_upper; lia|].
    destruct ((97 <=? bn c) && (bn c <=? 102)) eqn:E3; [intros [= <-]; replace (bn c - 87) with (bn c - 97 + 10) by lia; apply dg_lower; lia|discriminate].
  - intros [c' R|c' R|c' R]; destruct ((48 <=? bn c') && (bn c' <=? 57)) eqn:E1; try lia; try (f_equal; lia);
      destruct ((65 <=? bn c') && (bn c' <=? 70)) eqn:E2; try lia; try (f_equal; lia); destruct ((97 <=? bn c') && (bn c' <=? 102)) eqn:E3; try lia; f_equal; lia.
Qed.
Lemma digit_lt : forall c d, digit c d -> d < 16.
Proof. intros c d []; lia. Qed.
Lemma hstream_hex : forall x y, hstream x = Some (y, None) <-> is_hex x y.
Proof.
  intros x y. split.
  - revert x y. apply (pair_ind (fun x => forall y, hstream x = Some (y, None) -> is_hex x y)).
    + intros y [= <-]. constructor.
    + intros a y H. discriminate.
    + intros a b r IH y H. cbn [hstream] in H. unfold pairb in H. destruct (C2H a) as [h|] eqn:A; [|discriminate]. destruct (C2H b) as [l|] eqn:B; [|discriminate].
      destruct (hstream r) as [[o q]|]; [|discriminate]. injection H as <- ->. apply C2H_digit in A, B. econstructor; eauto. rewrite bn_nb. apply digit_lt in A, B. apply N.mod_small. lia.
  - induction 1 as [|h l hi lo b t o D1 D2 E H IH]; [reflexivity|]. cbn [hstream]. unfold pairb. apply C2H_digit in D1, D2. rewrite D1, D2, IH, <- E, nb_bn. reflexivity.
Qed.
Lemma H2C_digit : forall u d, d < 16 -> digit (H2C u d) d /\ letters u (H2C u d).
Proof.
  intros u d L. assert (D : forall c e, C2H c = Some e -> digit c e) by (intros; now apply C2H_digit). split.
  - apply D. unfold H2C, C2H. destruct u; do 16 (destruct d as [|d] using N.peano_ind; [reflexivity|clear IHd]); lia.
  - unfold H2C, letters. destruct u; destruct (N.ltb_spec d 10); rewrite bn_nb, N.mod_small; lia.
Qed.
Lemma H2C_unique : forall u c d, digit c d -> letters u c -> c = H2C u d.
Proof.
  intros u c d D L. apply bn_inj. unfold H2C, letters in *. rewrite bn_nb. pose proof (bn_lt c). destruct D as [c R|c R|c R]; destruct u; try lia.
  - destruct (N.ltb_spec (bn c - 48) 10); [|lia]. rewrite N.mod_small by lia. lia.
  - destruct (N.ltb_spec (bn c - 48) 10); [|lia]. rewrite N.mod_small by lia. lia.
  - destruct (N.ltb_spec (bn c - 65 + 10) 10); [lia|]. rewrite N.mod_small by lia. lia.
  - destruct (N.ltb_spec (bn c - 97 + 10) 10); [lia|]. rewrite N.mod_small by lia. lia.
Qed.
Lemma toHex_means : forall u x y, toHex u x = y <-> is_hex y x /\ Forall (letters u) y.
Proof.
  intros u x y. split.
  - intros <-. unfold toHex. induction x as [|b x [I1 I2]]; [split; constructor|]. cbn [flat_map app]. pose proof (bn_lt b).
    assert (Q : bn b / 16 < 16) by (apply N.div_lt_upper_bound; lia). assert (R : bn b mod 16 < 16) by (apply N.mod_lt; lia).
    destruct (H2C_digit u _ Q) as [D1 L1]. destruct (H2C_digit u _ R) as [D2 L2]. split; [|auto]. econstructor; eauto. apply N.div_mod. lia.
  - intros [H L]. induction H as [|h l hi lo b t o D1 D2 E H IH]; [reflexivity|]. inversion L as [|? ? L1 L']; subst. inversion L' as [|? ? L2 L3]; subst.
    pose proof (digit_lt _ _ D1). pose proof (digit_lt _ _ D2). unfold toHex in *. cbn [flat_map app]. rewrite (IH L3), E.
    replace ((16 * hi + lo) / 16) with hi by (apply N.div_unique with lo; lia). replace ((16 * hi + lo) mod 16) with lo by (apply N.mod_unique with hi; lia).
    rewrite <- (H2C_unique u h hi D1 L1), <- (H2C_unique u l lo D2 L2). reflexivity.
Qed.
Lemma tfinal_means : forall k x y, tfinal k x = Some y <-> means k x y.
Proof.
  intros [u| |ws] x y; unfold tfinal, means; cbn [tstream].
  - rewrite <- toHex_means. split; congruence.
  - rewrite <- hstream_hex. destruct (hstream x) as [[o [q|]]|]; split; congruence.
  - split; congruence.
Qed.
Lemma cfinal_means : forall ks x z, cfinal ks x = Some z <-> chain_means ks x z.
Proof.
  induction ks as [|k ks IH]; intros x z; cbn [cfinal chain_means]; [split; congruence|]. split.
  - destruct (tfinal k x) as [y|] eqn:E; [|discriminate]. intro H. exists y. rewrite <- tfinal_means, <- IH. auto.
  - intros (y & M & C). apply tfinal_means in M. rewrite M. now apply IH.
Qed.

Lemma step_run : forall n bufs c x c' rs, acc n c x -> live n c -> flat n c -> ch_sched n c = [] -> ss_run n (map SWrite bufs ++ [SEnd]) c = (c', rs) ->
  (rs = map (fun b => Ok (nlen b)) bufs ++ [Ok 0] /\ cfinal (kinds n c) (x ++ concat bufs) = Some (k_got (ch_sink n c')) /\ k_end (ch_sink n c') = true) \/
  (In (Err ERuntime) rs /\ cfinal (kinds n c) (x ++ concat bufs) = None).
Proof.
  intros n. induction bufs as [|b bufs IH]; intros c x c' rs A L F SC H.
  - cbn [map app ss_run ss_step] in H. destruct (ch_end n c) as [c1 e] eqn:E. injection H as <- <-. pose proof (end_ok n c x c1 e A L (or_introl (conj F SC)) E) as R. cbn [concat]. rewrite app_nil_r. destruct e as [e|].
    + right. destruct R as [-> [R|R]]; [rewrite SC in R; destruct R|]. split; auto. now left.
    + left. splits; auto; apply R.
  - cbn [map app ss_run ss_step] in H. destruct (ch_write n c b) as [c1 w] eqn:W. destruct (ss_run n (map SWrite bufs ++ [SEnd]) c1) as [c2 rs2] eqn:R2. injection H as <- <-.
    destruct (chain_ok n c x b c1 w A L W) as (K & [WK _] & R). rewrite SC in WK. cbn [concat map app]. rewrite app_assoc. destruct w as [m|e].
    + destruct R as (L1 & _ & A1 & [->|[SH _]] & FL); [|rewrite SC in SH; cbn in SH; lia]. rewrite ntake_all in A1 by apply N.le_refl.
      assert (SC1 : ch_sched n c1 = []) by (destruct (ch_sched n c1); [reflexivity|cbn in WK; lia]). rewrite <- K. destruct (IH c1 _ c2 rs2 A1 L1 (FL F SC) SC1 R2) as [(-> & I2 & I3)|[I1 I2]]; [left|right].
      * splits; auto.
      * split; auto. now right.
    + destruct R as [-> [R|R]]; [rewrite SC in R; destruct R|]. right. split; [now left|]. apply fails_final. now apply fails_app.
Qed.
Lemma flushAll_end : forall {D} (dw : D -> bytes -> D * res N) fuel t d s r, t_flushAll dw fuel t d = (s, r) -> t_end (fst s) = t_end t.
Proof.
  intros D dw. induction fuel as [|f IH]; intros t d s r H; cbn [t_flushAll] in H; destruct (t_isEmpty t) eqn:E; try (injection H as <- <-; reflexivity).
  unfold t_flush in H. rewrite E in H. destruct (dw d (t_out t)) as [d1 [m|e]]; [|injection H as <- <-; reflexivity]. apply IH in H. exact H.
Qed.
Lemma after_end : forall n c c' r b, ch_end n c = (c', r) -> ch_write n c' b = (c', Err ERuntime) /\ ch_end n c' = (c', None).
Proof.
  intros [|n] c c' r b H.
  - cbn in H. injection H as <- <-. split; reflexivity.
  - destruct c as [t d]. assert (E : t_end (fst c') = true).
    { cbn [ch_end snd] in H. unfold t_endM in H. destruct (t_end t) eqn:T; [injection H as <- <-; exact T|].
      set (t0 := mkT _ _ _ _) in H. destruct (match t_kind t, t_odd t with HexDecode, Some _ => ((t0, d), Some ERuntime) | HexDecode, None => ((t0, d), None) | _, _ => t_flushAll (ch_write n) (S (length (ch_sched n d))) t0 d end) as [[t1 d1] x1] eqn:M.
      assert (E1 : t_end t1 = true). { destruct (t_kind t); [apply flushAll_end in M; exact M| |apply flushAll_end in M; exact M]. destruct (t_odd t); injection M as <- <- <-; reflexivity. }
      destruct x1; [injection H as <- <-; exact E1|]. destruct (ch_end n d1). injection H as <- <-. exact E1. }
    destruct c' as [t' d']. cbn [fst] in E. cbn [ch_write ch_end]. unfold t_write, t_endM. rewrite E. auto.
Qed.

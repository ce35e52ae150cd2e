(* Proofs for C51: histories *)
From Verif Require Import Base BaseLemmas M_Tlv S_Tlv P_Tlv P_Block M_Str M_Name S_Name P_NameUri M_Packet M_Ims P_Ims M_Control M_Signer M_IntPolicy S_IntPolicy P_IntPolicy P_CmdPolicy P_SgnPolicy.
From Coq Require Import ZArith Lia ZifyBool ZifyNat ZifyN Sorting.Sorted Permutation.
Open Scope N_scope.
Open Scope Z_scope.

Definition passes (o : sopts) (sys : Z) (v : svals) (r : option srec) : Prop :=
  (so_ts o = true -> exists t, sv_ts v = Some t /\ Z.abs (sys - t) <= so_grace o /\ forall x y, r = Some x -> sr_ts x = Some y -> y < t) /\
  (so_seq o = true -> exists n, sv_seq v = Some n /\ forall x y, r = Some x -> sr_seq x = Some y -> (y < n)%N) /\
  (so_nonce o = true -> exists n, sv_nonce v = Some n /\ forall x, r = Some x -> ~ In n (sr_nonces x)).
Lemma existsb_in : forall n l, existsb (bytes_eqb n) l = true <-> In n l.
Proof.
  intros n l. rewrite existsb_exists. split; [intros (x & I & E); apply bytes_eqb_eq in E; now subst|]. intro I. exists n. split; [exact I|apply bytes_eqb_refl].
Qed.
Lemma checkSigned_iff : forall o sys v q b, checkSigned o sys v q = Ok b -> b = true <-> passes o sys v (sfind (sv_key v) q).
Proof.
  intros o sys v q b H. unfold checkSigned in H. set (r := sfind (sv_key v) q) in *.
  set (a := if so_ts o then _ else _) in H. assert (Ha : match a with Ok true => (so_ts o = true -> exists t, sv_ts v = Some t /\ Z.abs (sys - t) <= so_grace o /\ forall x y, r = Some x -> sr_ts x = Some y -> y < t)
     | Ok false => ~ (so_ts o = true -> exists t, sv_ts v = Some t /\ Z.abs (sys - t) <= so_grace o /\ forall x y, r = Some x -> sr_ts x = Some y -> y < t) | Err _ => True end).
  { subst a. destruct (so_ts o); [|discriminate]. destruct (sv_ts v) as [t|]; [|intro X; destruct (X eq_refl) as (? & ? & _); discriminate].
    destruct (i64 (sys - t)) as [d|] eqn:E1; cbn [bind]; [|exact I]. apply i64_inv in E1 as [-> _]. destruct (i64 (Z.abs (sys - t))) as [d|] eqn:E2; cbn [bind]; [|exact I]. apply i64_inv in E2 as [-> _].
    destruct (Z.ltb_spec (so_grace o) (Z.abs (sys - t))) as [L|L]; [intro X; destruct (X eq_refl) as (t' & [= <-] & Y & _); lia|].
    destruct r as [x|]; [|intros _; exists t; splits; auto; discriminate]. destruct (sr_ts x) as [y|] eqn:Y.
    - destruct (Z.leb_spec t y) as [L2|L2]; cbn [negb].
      + intro X; destruct (X eq_refl) as (t' & [= <-] & _ & Z). specialize (Z _ _ eq_refl Y). lia.
      + intros _. exists t. splits; auto. intros x' y' [= <-] E. rewrite Y in E. injection E as <-. exact L2.
    - intros _. exists t. splits; auto. intros x' y' [= <-] E. congruence. }
  destruct a as [[|]|]; cbn [bind negb] in H; [| |discriminate].
  2:{ injection H as <-. split; [discriminate|]. intros [X _]. now apply Ha in X. }
  set (c := if so_seq o then _ else _) in H. assert (Hc : c = true <-> (so_seq o = true -> exists n, sv_seq v = Some n /\ forall x y, r = Some x -> sr_seq x = Some y -> (y < n)%N)).
  { subst c. destruct (so_seq o); [|split; [discriminate|reflexivity]]. destruct (sv_seq v) as [n|]; [|split; [discriminate|intro X; destruct (X eq_refl) as (? & ? & _); discriminate]].
    destruct r as [x|]; [|split; [intros _ _; exists n; split; [reflexivity|discriminate]|reflexivity]]. destruct (sr_seq x) as [y|] eqn:Y.
    - destruct (N.leb_spec n y) as [L2|L2]; cbn [negb]; split; try discriminate; auto.
      + intro X; destruct (X eq_refl) as (t' & [= <-] & Z). specialize (Z _ _ eq_refl Y). lia.
      + intros _ _. exists n. split; auto. intros x' y' [= <-] E. rewrite Y in E. injection E as <-. exact L2.
    - split; [|reflexivity]. intros _ _. exists n. split; auto. intros x' y' [= <-] E. congruence. }
  destruct c; cbn [negb] in H.
  2:{ injection H as <-. split; [discriminate|]. intros (_ & X & _). now apply Hc in X. }
  injection H as H. unfold passes. assert (Hn : b = true <-> (so_nonce o = true -> exists n, sv_nonce v = Some n /\ forall x, r = Some x -> ~ In n (sr_nonces x))); [|tauto].
  rewrite <- H. destruct (so_nonce o); [|split; [discriminate|reflexivity]]. destruct (sv_nonce v) as [n|]; [|split; [discriminate|intro X; destruct (X eq_refl) as (? & ? & _); discriminate]].
  destruct r as [x|]; [|split; [intros _ _; exists n; split; [reflexivity|discriminate]|reflexivity]]. split.
  - intros E _. exists n. split; [reflexivity|]. intros x' [= <-] I. apply existsb_in in I. rewrite I in E. discriminate.
  - intro X. destruct (X eq_refl) as (n' & [= <-] & Z). specialize (Z _ eq_refl). destruct (existsb (bytes_eqb n) (sr_nonces x)) eqn:E; [|reflexivity]. apply existsb_in in E. contradiction.
Qed.
Lemma sgn_check_inv : forall o sys st i q q' a, sgn_check o sys st i q = Ok (q', a) -> q' = q /\
  (forall v, a = PGo (Some v) -> exists si, i = V03 si /\ is_signed si v /\ passes o sys v (sfind (sv_key v) q)) /\
  (a = PFail -> exists si, i = V03 si /\ forall v, is_signed si v -> ~ passes o sys v (sfind (sv_key v) q)) /\
  (a = PGo None -> exists n, i = V02 n).
Proof.
  intros o sys st i q q' a H. unfold sgn_check in H. destruct i as [si|n].
  - destruct (parseSigned si) as [[|v]|] eqn:P; cbn [bind] in H; [| |discriminate].
    + injection H as <- <-. splits; auto; try discriminate. intros _. exists si. split; [reflexivity|]. intros v X. apply parseSigned_iff in X. congruence.
    + destruct (checkSigned o sys v q) as [b|] eqn:C; cbn [bind] in H; [|discriminate]. injection H as <- <-. pose proof (checkSigned_iff _ _ _ _ _ C) as Iff. destruct b; splits; auto; try discriminate.
      * intros v' [= <-]. exists si. splits; auto; [now apply parseSigned_iff|now apply Iff].
      * intros _. exists si. split; [reflexivity|]. intros v' X Y. apply parseSigned_iff in X. rewrite P in X. injection X as ->. apply Iff in Y. discriminate.
  - injection H as <- <-. splits; auto; try discriminate. eauto.
Qed.
Lemma nodup_split : forall A (a b a' b' : list A) x, NoDup (a ++ x :: b) -> a ++ x :: b = a' ++ x :: b' -> a = a' /\ b = b'.
Proof.
  intros A a. induction a as [|y a IH]; intros b a' b' x N E; cbn [app] in *; destruct a' as [|z a']; cbn [app] in E.
  - injection E as ->. auto.
  - injection E as <- ->. inversion N as [|? ? X _]; subst. contradiction X. apply in_or_app. right; now left.
  - injection E as -> <-. inversion N as [|? ? X _]; subst. contradiction X. apply in_or_app. right; now left.
  - injection E as <- E. inversion N; subst. destruct (IH _ _ _ _ ltac:(eassumption) E) as [-> ->]. auto.
Qed.
Lemma app_around : forall A (p s a b : list A) r x, p ++ s = a ++ r :: b -> exists a' b', p ++ x :: s = a' ++ r :: b' /\ forall y, In y b' -> y = x \/ In y b.
Proof.
  intros A p. induction p as [|y p IH]; intros s a b r x E; cbn [app] in *.
  - subst s. exists (x :: a), b. split; auto.
  - destruct a as [|z a]; cbn [app] in E.
    + injection E as <- E. exists [], (p ++ x :: s). split; [reflexivity|]. intros z Z. rewrite <- E. apply in_app_or in Z as [Z|[<-|Z]]; auto; right; apply in_or_app; auto.
    + injection E as <- E. destruct (IH _ _ _ _ x E) as (a' & b' & -> & H). exists (y :: a'), b'. auto.
Qed.
Lemma skeys_in : forall (q : sstate) r r', NoDup (skeys q) -> In r q -> In r' q -> sr_key r = sr_key r' -> r = r'.
Proof.
  induction q as [|x q IH]; cbn [skeys map]; intros r r' N A B E; [destruct A|]. inversion N as [|? ? N1 N2]; subst.
  destruct A as [->|A]; destruct B as [->|B]; auto.
  - contradiction N1. rewrite E. now apply in_map.
  - contradiction N1. rewrite <- E. now apply in_map.
Qed.
Lemma sfind_mid : forall q pre r post, NoDup (skeys q) -> q = pre ++ r :: post -> sfind (sr_key r) q = Some r.
Proof.
  intros q pre r post N E. destruct (sfind (sr_key r) q) as [x|] eqn:F.
  - f_equal. apply sfind_split in F as (a & b & E' & K & _). eapply skeys_in; eauto; [rewrite E'|rewrite E]; apply in_or_app; right; now left.
  - apply (sfind_none _ _ r) in F; [congruence|]. rewrite E. apply in_or_app. right; now left.
Qed.

Section Sgn.
Variable o : sopts.
Notation reachS := (reach _ _ (sgn_check o) (sgn_insert o)).
Notation stS := (pst sstate (option svals)).
(* what one step does to the table *)
Lemma sgn_step_tab : forall e s s1 x, p_step _ _ (sgn_check o) (sgn_insert o) e s = Ok (s1, x) ->
  (ps_tab s1 = ps_tab s /\ (forall id u v, x = ObDone id u (Some v) -> so_max o = 0)) \/
  exists id u v, x = ObDone id u (Some v) /\ so_max o <> 0 /\ insertRecord o u v (ps_tab s) = Ok (ps_tab s1) /\ In (id, Some v) (ps_pend s).
Proof.
  intros e s s1 x P. destruct (step_cases _ _ _ _ _ _ _ _ P) as [(i&sys&st&?&?&b&->&X&_&E&_)|[(?&?&?&?&->&X&E&_)|[(?&?&?&?&->&_&->)|[(id&u&a&q&->&G&X&E&_)|[(?&->&E&_)|[-> ->]]]]]];
    try (left; split; [|discriminate]; rewrite ?E; (reflexivity || now apply sgn_check_inv in X)).
  unfold sgn_insert in X. destruct a as [v|]; [|injection X as X; left; split; [congruence|discriminate]]. destruct (Z.eqb_spec (so_max o) 0) as [M|M]; [injection X as X; left; split; [congruence|auto]|].
  right. exists id, u, v. apply pend_get_in in G. rewrite E. auto.
Qed.
Lemma tab_ok_reach : forall s t s', reachS s t s' -> tab_ok o (ps_tab s) -> tab_ok o (ps_tab s').
Proof.
  intros s t s' H. induction H as [s|e s s1 x t s2 P R IH]; intro T; [exact T|]. apply IH. destruct (sgn_step_tab _ _ _ _ P) as [[-> _]|(id & u & v & _ & M & E & _)]; [exact T|].
  destruct (insert_ok o u v _ T M) as (q' & E' & T' & _). congruence.
Qed.
(* the records of a key stem from accepted Interests *)
Definition stems (s : stS) (t : list (iobs (option svals))) (r : srec) : Prop :=
  (forall y, sr_ts r = Some y -> exists id u v, In (ObDone id u (Some v)) t /\ sv_key v = sr_key r /\ sv_ts v = Some y) /\
  (forall y, sr_seq r = Some y -> exists id u v, In (ObDone id u (Some v)) t /\ sv_key v = sr_key r /\ sv_seq v = Some y) /\
  (forall y, In y (sr_nonces r) -> exists id u v, In (ObDone id u (Some v)) t /\ sv_key v = sr_key r /\ sv_nonce v = Some y) /\
  (exists id a, In (ObDone id (sr_ref r) a) t).
Lemma nonces_in : forall n l y, In y (nonces_after o n l) -> In y l \/ n = Some y.
Proof.
  intros n l y. unfold nonces_after. destruct n as [n|]; [|auto]. destruct (_ && _); [|auto]. set (l' := if existsb (bytes_eqb n) l then l else l ++ [n]).
  assert (H : In y l' -> In y l \/ Some n = Some y). { subst l'. destruct (existsb _ _); [auto|]. rewrite in_app_iff. intros [A|[->|[]]]; auto. }
  destruct (_ && _); [|exact H]. intro I. apply H. destruct l'; [destruct I|now right].
Qed.
Lemma tab_stems : forall s t s', reachS s t s' -> tab_ok o (ps_tab s) -> (ps_tab s = []) -> forall r, In r (ps_tab s') -> stems s' t r.
Proof.
  intros s t s' H T E0. assert (G : forall s t s', reachS s t s' -> tab_ok o (ps_tab s) -> forall t0, (forall r, In r (ps_tab s) -> stems s t0 r) -> forall r, In r (ps_tab s') -> stems s' (t0 ++ t) r).
  2:{ intros r I. apply (G s t s' H T []); [|exact I]. rewrite E0. intros ? []. }
  clear. intros s t s' H. induction H as [s|e s s1 x t s2 P R IH]; intros T t0 Old r I; [rewrite app_nil_r; now apply Old|].
  assert (T1 : tab_ok o (ps_tab s1)) by (eapply tab_ok_reach; [econstructor; [exact P|constructor]|exact T]).
  replace (t0 ++ x :: t) with ((t0 ++ [x]) ++ t) by (rewrite <- app_assoc; reflexivity). apply IH; auto. clear r I. intros r I.
  assert (Mono : forall r, stems s t0 r -> stems s1 (t0 ++ [x]) r).
  { clear. intros r (A & B & C & D). unfold stems. splits; [intros y Y; destruct (A _ Y) as (id & u & v & I & K)|intros y Y; destruct (B _ Y) as (id & u & v & I & K)|intros y Y; destruct (C _ Y) as (id & u & v & I & K)|destruct D as (id & a & I); exists id, a; apply in_or_app; now left];
    exists id, u, v; (split; [apply in_or_app; now left|exact K]). }
  destruct (sgn_step_tab _ _ _ _ P) as [[E _]|(id & u & v & -> & M & E & _)]; [rewrite E in I; auto|].
  destruct (insert_ok o u v _ T M) as (q' & E' & _ & J). rewrite E in E'. injection E' as <-. destruct (J _ I) as [K| ->]; [auto|]. clear J I IH R P.
  assert (Me : In (ObDone id u (Some v)) (t0 ++ [ObDone id u (Some v)])) by (apply in_or_app; right; now left).
  destruct (sfind (sv_key v) (ps_tab s)) as [z|] eqn:F.
  - apply sfind_split in F as (a & b & Ez & Kz & _). assert (Iz : In z (ps_tab s)) by (rewrite Ez; apply in_or_app; right; now left). pose proof (Mono _ (Old _ Iz)) as (A & B & C & _). rewrite Kz in *.
    unfold stems, upd, upd1. splits; cbn [sr_key sr_ts sr_seq sr_nonces sr_ref].
    + intros y Y. unfold orElse in Y. destruct (sv_ts v) eqn:Tv; [injection Y as ->; exists id, u, v; auto|auto].
    + intros y Y. unfold orElse in Y. destruct (sv_seq v) eqn:Tv; [injection Y as ->; exists id, u, v; auto|auto].
    + intros y Y. apply nonces_in in Y as [Y|Y]; [auto|exists id, u, v; auto].
    + eauto.
  - unfold stems, upd, upd1. splits; cbn [sr_key sr_ts sr_seq sr_nonces sr_ref].
    + intros y Y. exists id, u, v; auto.
    + intros y Y. exists id, u, v; auto.
    + intros y Y. apply nonces_in in Y as [[]|Y]. exists id, u, v; auto.
    + eauto.
Qed.

(* ---- a record is kept ---- *)
Variables (k : list key) (ks : list (list key)) (nx : N) (C : Z).
Variable RP : Z -> srec -> Prop.
Variable adm : svals -> Prop.
Variable free : Prop.
Hypothesis Mx : so_max o < 0 \/ Z.of_N (nlen ks) < so_max o.
Hypothesis RPupd : forall c r u v, RP c r -> sr_key r = k -> sv_key v = k -> adm v \/ free -> 0 <= c -> c + 1 <= C -> RP (c + 1) (upd o u v (Some r)).
Hypothesis RPpass : forall c r sys v, RP c r -> sv_key v = k -> passes o sys v (Some r) -> adm v.
Record keptS (c : Z) (s : stS) : Prop := {
  ke_tab : tab_ok o (ps_tab s);
  ke_rec : exists pre r post, ps_tab s = pre ++ r :: post /\ sr_key r = k /\ RP c r /\ (forall x, In x post -> so_max o < 0 \/ In (sr_key x) ks);
  ke_pend : forall id v, In (id, Some v) (ps_pend s) -> sv_key v = k -> (nx <= id)%N -> adm v;
  ke_next : (nx <= ps_next s)%N;
  ke_c : 0 <= c }.
Definition okobS (x : iobs (option svals)) : Prop :=
  match x with
  | ObDone id _ (Some v) => (sv_key v = k -> (nx <= id)%N \/ free) /\ (sv_key v <> k -> so_max o < 0 \/ In (sv_key v) ks)
  | _ => True
  end.
Lemma max_ne : so_max o <> 0.
Proof using Mx. clear RPupd RPpass RP C. destruct Mx as [?|M]; lia. Qed.
(* after evicting, if need be, the first record, the record of k is still there *)
Lemma evict : forall q pre r post, NoDup (skeys q) -> q = pre ++ r :: post -> (forall x, In x post -> so_max o < 0 \/ In (sr_key x) ks) ->
  exists pre', (if (0 <=? so_max o) && (so_max o <? Z.of_N (nlen q)) then tl q else q) = pre' ++ r :: post.
Proof using Mx.
  clear RPupd RPpass RP C. intros q pre r post N -> H. destruct (_ && _) eqn:B; [|eauto]. destruct pre as [|y pre]; [|exists pre; reflexivity]. exfalso. cbn [app] in *.
  cbn [skeys map] in N. inversion N as [|? ? _ N2]; subst. assert (L : (length (map sr_key post) <= length ks)%nat).
  { apply NoDup_incl_length; [exact N2|]. intros z Z. apply in_map_iff in Z as (x & <- & X). destruct (H _ X) as [?|?]; [lia|assumption]. }
  rewrite map_length in L. rewrite nlen_cons in B. unfold nlen in *. lia.
Qed.
Lemma keptS_reach : forall s t s', reachS s t s' -> forall c, keptS c s -> in_order t -> (forall r x u, In r (ps_tab s) -> In x t -> ob_steady x = Some u -> sr_ref r <= u) ->
  (forall x, In x t -> okobS x) -> c + accepted_of skey k t <= C -> keptS (c + accepted_of skey k t) s'.
Proof using Mx RPupd RPpass.
  intros s t s' H. induction H as [s|e s s1 x t s2 P R IH]; intros c K Ord Fut O Cc; [cbn [accepted_of]; replace (c + 0) with c by lia; exact K|].
  assert (Acc : forall t, 0 <= accepted_of skey k t). { clear. induction t as [|[] t IH]; cbn [accepted_of]; try lia. destruct (skey a) as [k2|]; [destruct (names_eqb k2 k)|]; lia. }
  pose proof (O x (or_introl eq_refl)) as Ox. pose proof K as [T (pre & r & post & E & Kr & Rr & Rp) Pd Nx Kc].
  assert (T1 : tab_ok o (ps_tab s1)) by (eapply tab_ok_reach; [econstructor; [exact P|constructor]|exact T]).
  assert (Pd1 : forall id v, In (id, Some v) (ps_pend s1) -> sv_key v = k -> (nx <= id)%N -> adm v).
  { intros id v I Kv L. destruct (step_cases _ _ _ _ _ _ _ _ P) as [(i&sys&st&si&q&b&_&X&->&_&E1&_)|[(?&?&?&?&_&X&_&E1&_)|[(?&?&?&?&_&_&->)|[(?&?&?&?&_&_&X&_&E1&_)|[(?&_&_&E1&_)|[_ ->]]]]]]; eauto.
    - rewrite E1 in I. destruct I as [[= <- ->]|I]; [|eauto]. apply sgn_check_inv in X as (_ & X & _). destruct (X v eq_refl) as (_ & _ & _ & Ps). rewrite Kv in Ps.
      rewrite <- Kr in Ps at 1. rewrite (sfind_mid _ _ _ _ (to_nodup _ _ T) E) in Ps. eapply RPpass; eauto.
    - rewrite E1 in I. eauto.
    - rewrite E1 in I. apply pend_del_in in I. eauto.
    - rewrite E1 in I. apply pend_del_in in I. eauto. }
  assert (Nx1 : (nx <= ps_next s1)%N).
  { destruct (step_cases _ _ _ _ _ _ _ _ P) as [(?&?&?&?&?&?&_&_&_&_&_&E1)|[(?&?&?&?&_&_&_&_&E1)|[(?&?&?&?&_&_&->)|[(?&?&?&?&_&_&_&_&_&E1)|[(?&_&_&_&E1)|[_ ->]]]]]]; lia. }
  assert (Fut1 : forall r x u, In r (ps_tab s1) -> In x t -> ob_steady x = Some u -> sr_ref r <= u).
  { intros r0 y u I Y U. destruct (sgn_step_tab _ _ _ _ P) as [[E1 _]|(id & u1 & v & -> & M & E1 & _)]; [rewrite E1 in I; eapply Fut; eauto; now right|].
    destruct (insert_ok o u1 v _ T M) as (q' & E' & _ & J). rewrite E1 in E'. injection E' as <-. destruct (J _ I) as [I'| ->]; [eapply Fut; eauto; now right|].
    replace (sr_ref _) with u1 by (unfold upd, upd1; destruct (sfind _ _); reflexivity). apply in_split in Y as (l1 & l2 & ->). eapply (Ord [] _ l1 y l2); [reflexivity|reflexivity|exact U]. }
  assert (K1 : exists c1, c1 + accepted_of skey k t = c + accepted_of skey k (x :: t) /\ keptS c1 s1).
  { destruct (sgn_step_tab _ _ _ _ P) as [[E1 D1]|(id & u1 & v & -> & M & E1 & G)].
    - exists c. split.
      + f_equal. destruct x as [ | | |id u1 a| |]; try reflexivity. destruct a as [v|]; [|reflexivity]. exfalso. apply max_ne. eauto.
      + split; auto. rewrite E1. exists pre, r, post. auto.
    - destruct (insert_form o u1 v _ T M) as (p & s0 & F1 & _ & F3 & F4 & _ & F6). rewrite E1 in F3. injection F3 as F3. set (y := upd o u1 v (sfind (sv_key v) (ps_tab s))) in *.
      assert (Ky : sr_key y = sv_key v) by (subst y; unfold upd, upd1; destruct (sfind (sv_key v) (ps_tab s)); reflexivity).
      assert (Ny : NoDup (skeys (p ++ y :: s0))) by (eapply nodup_perm_keys; eauto; apply T).
      cbn [okobS] in Ox. destruct Ox as [Ox1 Ox2]. cbn [accepted_of skey option_map] in *. destruct (names_eqb (sv_key v) k) eqn:Ek.
      + apply names_eqb_eq in Ek. exists (c + 1). split; [lia|]. specialize (Acc t).
        assert (Fr : sfind (sv_key v) (ps_tab s) = Some r) by (rewrite Ek, <- Kr; eapply sfind_mid; [apply T|exact E]).
        assert (Av : adm v \/ free). { destruct (Ox1 Ek) as [L|A]; [|now right]. left. eapply Pd; eauto. }
        rewrite Fr in F6. assert (Yr : RP (c + 1) y) by (subst y; rewrite Fr; apply RPupd; auto; lia).
        assert (Over : (0 <=? so_max o) && (so_max o <? Z.of_N (nlen (p ++ y :: s0))) = false). { subst y. rewrite Fr in *. rewrite F6 by discriminate. pose proof (to_max _ _ T). lia. }
        rewrite Over in F3. split; auto; [|lia]. rewrite F3. exists p, y, s0. splits; auto; [congruence|].
        destruct F4 as [->|(x0 & F4)].
        { intros z Z. eapply Fut; [exact Z|now left|reflexivity]. }
        { intros z []. }
        assert (Ex : x0 = r).
        { destruct (in_app_or p (x0 :: s0) r) as [I|[I|I]]; [rewrite <- F4, E; apply in_or_app; right; now left| |exact I|];
          exfalso; assert (I' : In r (others (sv_key v) (ps_tab s))) by (rewrite <- F1; apply in_or_app; auto); unfold others in I'; apply filter_In in I' as [_ I']; rewrite Kr, <- Ek, names_eqb_refl in I'; discriminate. }
        subst x0. assert (Nd : NoDup (ps_tab s)) by (eapply NoDup_map_inv; apply T). rewrite E in F4, Nd. destruct (nodup_split _ _ _ _ _ _ Nd F4) as [_ <-]. exact Rp.
      + apply names_eqb_neq in Ek. exists c. split; [lia|]. assert (Eo : p ++ s0 = others (sv_key v) pre ++ r :: others (sv_key v) post).
        { rewrite F1, E, others_app. f_equal. cbn [others filter]. replace (names_eqb (sr_key r) (sv_key v)) with false by (symmetry; apply names_eqb_neq; congruence). reflexivity. }
        destruct (app_around _ _ _ _ _ _ y Eo) as (a' & b' & Ea & Hb). assert (Hb' : forall z, In z b' -> so_max o < 0 \/ In (sr_key z) ks).
        { intros z Z. destruct (Hb _ Z) as [->|Z']; [rewrite Ky; auto|]. unfold others in Z'. apply filter_In in Z' as [Z' _]. auto. }
        destruct (evict _ _ _ _ Ny Ea Hb') as (pre' & Ep). split; auto. rewrite F3. exists pre', r, b'. splits; auto. }
  destruct K1 as (c1 & Ec & K1). rewrite <- Ec. apply IH; auto; [now apply order_tail in Ord|intros y Y; apply O; now right|lia].
Qed.
End Sgn.

(* the record made when an Interest is accepted constrains a later one of the same key *)
Lemma sgn_kept : forall o l s t1 t2 t3 id u v id' sys st v' C (RP : Z -> srec -> Prop) (adm : svals -> Prop) (free : Prop),
  p_run _ _ (sgn_check o) (sgn_insert o) l (mkPS (Q := sstate) [] [] 0%N) = Ok (s, t1 ++ ObDone id u (Some v) :: t2 ++ ObPass id' sys st (Some v') :: t3) ->
  in_order (t1 ++ ObDone id u (Some v) :: t2 ++ ObPass id' sys st (Some v') :: t3) -> sv_key v' = sv_key v ->
  so_max o <> 0 -> so_max o < 0 \/ all_before u t1 -> one_by_one skey (sv_key v) t2 \/ free -> few_others skey (sv_key v) (so_max o) t2 ->
  (forall c r u w, RP c r -> sr_key r = sv_key v -> sv_key w = sv_key v -> adm w \/ free -> 0 <= c -> c + 1 <= C -> RP (c + 1) (upd o u w (Some r))) ->
  (forall c r sys w, RP c r -> sv_key w = sv_key v -> passes o sys w (Some r) -> adm w) ->
  (forall m, reach _ _ (sgn_check o) (sgn_insert o) (mkPS (Q := sstate) [] [] 0%N) t1 m -> RP 0 (upd o u v (sfind (sv_key v) (ps_tab m)))) ->
  accepted_of skey (sv_key v) t2 <= C -> adm v'.
Proof.
  intros o l s t1 t2 t3 id u v id' sys st v' C RP adm free H Ord Ev Mx Bef One Few Hu Hp H0 Hc. apply run_reach in H. apply reach_app in H as (m & R1 & R2). specialize (H0 _ R1).
  inversion R2 as [|e ? s1 ? ? ? P R3]; subst. apply reach_app in R3 as (m2 & R3 & R4). inversion R4 as [|e2 ? s2 ? ? ? P2 R5]; subst. clear R4 R5 R2.
  assert (T0 : tab_ok o (ps_tab m)). { eapply tab_ok_reach; [exact R1|]. constructor; cbn [ps_tab]; [constructor|constructor|cbn; lia|intros ? []]. }
  assert (Ks : exists ks, (so_max o < 0 \/ Z.of_N (nlen ks) < so_max o) /\ forall i u' w, In (ObDone i u' (Some w)) t2 -> sv_key w <> sv_key v -> so_max o < 0 \/ In (sv_key w) ks).
  { destruct Few as [F|(ks & L & F)]; [exists []; split; auto|]. exists ks. split; [auto|]. intros i u' w I Ne. right. eapply F; [exact I|reflexivity|exact Ne]. }
  destruct Ks as (ks & Mk & Fk).
  pose proof (step_done _ _ _ _ _ _ _ _ _ _ P) as (q & _ & G & X & Es). cbn [sgn_insert] in X. destruct (Z.eqb_spec (so_max o) 0) as [M|M]; [now apply Mx in M|]. clear M.
  destruct (insert_form o u v _ T0 Mx) as (p & s0 & F1 & _ & F3 & _ & F5 & _). rewrite X in F3. injection F3 as F3. set (y := upd o u v (sfind (sv_key v) (ps_tab m))) in *.
  assert (Ky : sr_key y = sv_key v) by (subst y; unfold upd, upd1; destruct (sfind (sv_key v) (ps_tab m)); reflexivity).
  assert (Ny : NoDup (skeys (p ++ y :: s0))) by (eapply nodup_perm_keys; eauto; apply T0).
  assert (Ref : forall r, In r (ps_tab m) -> exists i a, In (ObDone i (sr_ref r) a) t1).
  { intros r I. destruct (tab_stems o _ _ _ R1) with (r := r) as (_ & _ & _ & D); [constructor; cbn [ps_tab]; [constructor|constructor|cbn; lia|intros ? []]|reflexivity|exact I|exact D]. }
  assert (Hs : forall z, In z s0 -> so_max o < 0 \/ In (sr_key z) ks). { intros z Z. destruct Bef as [B|B]; [auto|]. rewrite F5 in Z; [destruct Z|]. intros r I. destruct (Ref _ I) as (i & a & J). eauto. }
  assert (Lt : forall i a, In (i, a) (ps_pend m) -> (i < ps_next m)%N) by (eapply init_pend_lt; exact R1).
  assert (K0 : keptS o (sv_key v) ks (ps_next m) RP adm 0 s1).
  { constructor; [| | | |lia].
    - rewrite Es. cbn [ps_tab]. destruct (insert_ok o u v _ T0 Mx) as (q' & E' & T' & _). congruence.
    - rewrite Es. cbn [ps_tab]. destruct (evict o ks Mk _ _ _ _ Ny eq_refl Hs) as (pre' & E'). rewrite F3, E'. exists pre', y, s0. auto.
    - rewrite Es. cbn [ps_pend]. intros i w I _ L. apply pend_del_in in I. apply Lt in I. lia.
    - rewrite Es. cbn [ps_next]. lia. }
  assert (K : keptS o (sv_key v) ks (ps_next m) RP adm (0 + accepted_of skey (sv_key v) t2) m2).
  { apply (keptS_reach o (sv_key v) ks (ps_next m) C RP adm free Mk Hu Hp _ _ _ R3 0 K0); [| | |lia].
    - assert (Ord' : in_order (t2 ++ ObPass id' sys st (Some v') :: t3)). { intros a1 x a2 z a3 p1 p2 E. apply (Ord (t1 ++ ObDone id u (Some v) :: a1) x a2 z a3). rewrite E, <- app_assoc. reflexivity. } now apply order_app_l in Ord'.
    - intros r x z I J Oz. rewrite Es in I. cbn [ps_tab] in I. destruct (insert_ok o u v _ T0 Mx) as (q' & E' & _ & J'). rewrite X in E'. injection E' as <-.
      assert (u <= z) by (eapply order_in1; [exact Ord|exact J|reflexivity|exact Oz]). destruct (J' _ I) as [I'| ->].
      + destruct (Ref _ I') as (i & a & D). apply in_split in D as (l1 & l2 & ->). assert (sr_ref r <= u); [|lia]. eapply (Ord l1 (ObDone i (sr_ref r) a) l2 (ObDone id u (Some v))); [rewrite <- app_assoc; reflexivity|reflexivity|reflexivity].
      + replace (sr_ref _) with u by (unfold upd, upd1; destruct (sfind _ _); reflexivity). assumption.
    - intros x J. destruct x as [ | | |i z a| |]; cbn [okobS]; try exact I. destruct a as [w|]; [|exact I]. split.
      + intro Ew. destruct One as [One|]; [left|now right]. destruct (One i z (Some w) J) as (sy & z' & a' & Y); [cbn; now rewrite Ew|]. destruct (reach_pend _ _ _ _ _ _ _ R3) as (_ & A2 & _). apply A2 in Y. rewrite Es in Y. cbn [ps_next] in Y. lia.
      + intro Ne. eapply Fk; eauto. }
  destruct K as [T2 (pre & r & post & E & Kr & Rr & _) _ _ _]. apply step_pass in P2 as (i & q2 & -> & Ck & _). apply sgn_check_inv in Ck as (_ & Ck & _). destruct (Ck _ eq_refl) as (_ & _ & _ & Ps).
  rewrite Ev, <- Kr in Ps. rewrite (sfind_mid _ _ _ _ (to_nodup _ _ T2) E) in Ps. eapply Hp; eauto.
Qed.
Lemma sgn_ts_increasing : forall o l s t1 t2 t3 id u v id' sys st v' ts,
  sgn_run o l = Ok (s, t1 ++ ObDone id u (Some v) :: t2 ++ ObPass id' sys st (Some v') :: t3) ->
  in_order (t1 ++ ObDone id u (Some v) :: t2 ++ ObPass id' sys st (Some v') :: t3) -> sv_key v' = sv_key v -> so_ts o = true -> sv_ts v = Some ts ->
  so_max o <> 0 -> so_max o < 0 \/ all_before u t1 -> one_by_one skey (sv_key v) t2 -> few_others skey (sv_key v) (so_max o) t2 ->
  exists ts', sv_ts v' = Some ts' /\ ts < ts'.
Proof.
  intros o l s t1 t2 t3 id u v id' sys st v' ts H Ord Ev Ot Ets Mx Bef One Few.
  apply (sgn_kept (so_init o) l s t1 t2 t3 id u v id' sys st v' (accepted_of skey (sv_key v) t2) (fun _ r => exists y, sr_ts r = Some y /\ ts <= y) (fun w => exists y, sv_ts w = Some y /\ ts < y) False); auto; try lia.
  - intros c r u0 w (y & Y & L) _ _ [(z & Z & L2)|[]] _ _. unfold upd, upd1. cbn [sr_ts]. exists z. rewrite Z. cbn [orElse]. split; [reflexivity|lia].
  - intros c r sy w (y & Y & L) _ (Ps & _). destruct (Ps Ot) as (z & Z & _ & Lt). exists z. split; [exact Z|]. specialize (Lt _ _ eq_refl Y). lia.
  - intros m _. exists ts. split; [|lia]. unfold upd, upd1. destruct (sfind _ _); cbn [sr_ts]; rewrite Ets; reflexivity.
Qed.
Lemma sgn_seq_increasing : forall o l s t1 t2 t3 id u v id' sys st v' n,
  sgn_run o l = Ok (s, t1 ++ ObDone id u (Some v) :: t2 ++ ObPass id' sys st (Some v') :: t3) ->
  in_order (t1 ++ ObDone id u (Some v) :: t2 ++ ObPass id' sys st (Some v') :: t3) -> sv_key v' = sv_key v -> so_seq o = true -> sv_seq v = Some n ->
  so_max o <> 0 -> so_max o < 0 \/ all_before u t1 -> one_by_one skey (sv_key v) t2 -> few_others skey (sv_key v) (so_max o) t2 ->
  exists n', sv_seq v' = Some n' /\ (n < n')%N.
Proof.
  intros o l s t1 t2 t3 id u v id' sys st v' n H Ord Ev Ot Ets Mx Bef One Few.
  apply (sgn_kept (so_init o) l s t1 t2 t3 id u v id' sys st v' (accepted_of skey (sv_key v) t2) (fun _ r => exists y, sr_seq r = Some y /\ (n <= y)%N) (fun w => exists y, sv_seq w = Some y /\ (n < y)%N) False); auto; try lia.
  - intros c r u0 w (y & Y & L) _ _ [(z & Z & L2)|[]] _ _. unfold upd, upd1. cbn [sr_seq]. exists z. rewrite Z. cbn [orElse]. split; [reflexivity|lia].
  - intros c r sy w (y & Y & L) _ (_ & Ps & _). destruct (Ps Ot) as (z & Z & Lt). exists z. split; [exact Z|]. specialize (Lt _ _ eq_refl Y). lia.
  - intros m _. exists n. split; [|lia]. unfold upd, upd1. destruct (sfind _ _); cbn [sr_seq]; rewrite Ets; reflexivity.
Qed.
(* nonces *)
Lemma nonces_same : forall o n l, so_nonce o = true -> so_maxNonce o <> 0 -> ~ In n l -> exists l1, nonces_after o (Some n) l = l1 ++ [n].
Proof.
  intros o n l On Mn I. unfold nonces_after. rewrite On. replace (so_maxNonce o =? 0) with false by lia. cbn [andb negb]. destruct (existsb (bytes_eqb n) l) eqn:E; [apply existsb_in in E; contradiction|].
  destruct (_ && _) eqn:B; [|eauto]. destruct l as [|x l]; [cbn in B; lia|]. exists l. reflexivity.
Qed.
Lemma nonces_keep : forall o w l1 n l2 c, so_maxNonce o < 0 \/ c + 1 < so_maxNonce o -> Z.of_N (nlen l2) <= c \/ so_maxNonce o < 0 ->
  exists l1' l2', nonces_after o w (l1 ++ n :: l2) = l1' ++ n :: l2' /\ (Z.of_N (nlen l2') <= c + 1 \/ so_maxNonce o < 0).
Proof.
  intros o w l1 n l2 c M L. unfold nonces_after. destruct w as [w|]; [|exists l1, l2; split; [reflexivity|lia]]. destruct (_ && _); [|exists l1, l2; split; [reflexivity|lia]].
  assert (E : exists l2', (if existsb (bytes_eqb w) (l1 ++ n :: l2) then l1 ++ n :: l2 else (l1 ++ n :: l2) ++ [w]) = l1 ++ n :: l2' /\ (Z.of_N (nlen l2') <= c + 1 \/ so_maxNonce o < 0)).
  { destruct (existsb _ _); [exists l2; split; [reflexivity|lia]|]. exists (l2 ++ [w]). split; [rewrite <- app_assoc; reflexivity|]. rewrite nlen_app. cbn. lia. }
  destruct E as (l2' & -> & L'). destruct ((0 <=? so_maxNonce o) && _) eqn:B; [|exists l1, l2'; auto]. destruct l1 as [|x l1]; [|exists l1, l2'; auto]. exfalso. cbn [app] in B. rewrite nlen_cons in B. lia.
Qed.
Definition no_nonce (k : list key) (n : bytes) (t : list (iobs (option svals))) : Prop := forall id u v, In (ObDone id u (Some v)) t -> sv_key v = k -> sv_nonce v <> Some n.
Lemma absent_reach : forall o k n s t s', reach _ _ (sgn_check o) (sgn_insert o) s t s' -> tab_ok o (ps_tab s) -> (forall r, In r (ps_tab s) -> sr_key r = k -> ~ In n (sr_nonces r)) ->
  (forall id u v, In (ObDone id u (Some v)) t -> sv_key v = k -> sv_nonce v <> Some n) -> forall r, In r (ps_tab s') -> sr_key r = k -> ~ In n (sr_nonces r).
Proof.
  intros o k n s t s' H. induction H as [s|e s s1 x t s2 P R IH]; intros T A Nn; [exact A|].
  assert (T1 : tab_ok o (ps_tab s1)) by (eapply tab_ok_reach; [econstructor; [exact P|constructor]|exact T]).
  apply IH; [exact T1| |intros; eapply Nn; [right; eassumption|assumption]]. destruct (sgn_step_tab _ _ _ _ _ P) as [[E _]|(id & u & v & -> & M & E & _)]; [rewrite E; exact A|].
  destruct (insert_ok o u v _ T M) as (q' & E' & _ & J). rewrite E in E'. injection E' as <-. intros r I Kr. destruct (J _ I) as [K| ->]; [auto|].
  assert (Kv : sv_key v = k) by (rewrite <- Kr; unfold upd, upd1; destruct (sfind _ _); reflexivity). unfold upd, upd1 in *. cbn [sr_nonces]. intro In2. apply nonces_in in In2 as [In2|In2].
  - destruct (sfind (sv_key v) (ps_tab s)) as [z|] eqn:F; cbn [sr_nonces] in In2; [|destruct In2]. apply sfind_split in F as (a & b & Ez & Kz & _). eapply A; [|rewrite Kz; exact Kv|exact In2]. rewrite Ez. apply in_or_app. right; now left.
  - eapply Nn; [left; reflexivity|exact Kv|exact In2].
Qed.
Lemma sgn_nonce : forall o l s ta tb t2 t3 id sys0 st0 u v id' sys st v' n,
  sgn_run o l = Ok (s, ta ++ ObPass id sys0 st0 (Some v) :: tb ++ ObDone id u (Some v) :: t2 ++ ObPass id' sys st (Some v') :: t3) ->
  in_order (ta ++ ObPass id sys0 st0 (Some v) :: tb ++ ObDone id u (Some v) :: t2 ++ ObPass id' sys st (Some v') :: t3) ->
  sv_key v' = sv_key v -> so_nonce o = true -> sv_nonce v = Some n -> (forall i z w, In (ObDone i z (Some w)) tb -> sv_key w = sv_key v -> sv_nonce w <> Some n) ->
  so_max o <> 0 -> so_max o < 0 \/ all_before u (ta ++ tb) -> few_others skey (sv_key v) (so_max o) t2 ->
  so_maxNonce o < 0 \/ accepted_of skey (sv_key v) t2 < so_maxNonce o ->
  exists n', sv_nonce v' = Some n' /\ n' <> n.
Proof.
  intros o l s ta tb t2 t3 id sys0 st0 u v id' sys st v' n H Ord Ev On En Nb Mx Bef Few Mn.
  assert (Acc : 0 <= accepted_of skey (sv_key v) t2). { clear. induction t2 as [|[] t IH]; cbn [accepted_of]; try lia. destruct (skey a) as [k2|]; [destruct (names_eqb k2 (sv_key v))|]; lia. }
  apply (sgn_kept (so_init o) l s (ta ++ ObPass id sys0 st0 (Some v) :: tb) t2 t3 id u v id' sys st v' (accepted_of skey (sv_key v) t2)
    (fun c r => exists l1 l2, sr_nonces r = l1 ++ n :: l2 /\ (Z.of_N (nlen l2) <= c \/ so_maxNonce o < 0)) (fun w => exists y, sv_nonce w = Some y /\ y <> n) True); auto; try lia.
  - rewrite <- app_assoc. exact H.
  - rewrite <- app_assoc. exact Ord.
  - destruct Bef as [B|B]; [auto|]. right. intros i z a I. apply in_app_or in I as [I|[I|I]]; [|discriminate|]; (eapply B; apply in_or_app; [left; exact I] || (eapply B; apply in_or_app; right; exact I)).
  - intros c r u0 w (l1 & l2 & E & L) _ _ _ C0 Cc. unfold upd, upd1. cbn [sr_nonces]. rewrite E. apply (nonces_keep (so_init o)); cbn [so_maxNonce so_init]; [|exact L]. destruct Mn as [?|?]; [auto|]. right. lia.
  - intros c r sy w (l1 & l2 & E & _) _ (_ & _ & Ps). destruct (Ps On) as (z & Z & Ni). exists z. split; [exact Z|]. intros ->. apply (Ni _ eq_refl). rewrite E. apply in_or_app. right; now left.
  - intros m Rm. apply reach_app in Rm as (m0 & R0 & R1). inversion R1 as [|e ? s1 ? ? ? P R3]; subst.
    assert (T0 : tab_ok (so_init o) (ps_tab m0)). { eapply tab_ok_reach; [exact R0|]. constructor; cbn [ps_tab]; [constructor|constructor|cbn; lia|intros ? []]. }
    apply step_pass in P as (i & q & _ & Ck & _ & ->). apply sgn_check_inv in Ck as (-> & Ck & _). destruct (Ck _ eq_refl) as (_ & _ & _ & (_ & _ & Ps)). destruct (Ps On) as (z & Z & Ni). rewrite En in Z. injection Z as <-.
    assert (Ab : forall r, In r (ps_tab m) -> sr_key r = sv_key v -> ~ In n (sr_nonces r)).
    { eapply absent_reach; [exact R3|exact T0| |exact Nb]. cbn [ps_tab]. intros r I Kr. apply Ni. rewrite <- Kr. apply in_split in I as (a & b & E). eapply sfind_mid; [apply T0|exact E]. }
    unfold upd, upd1. cbn [sr_nonces]. assert (Ni2 : ~ In n (sr_nonces (match sfind (sv_key v) (ps_tab m) with Some r => mkSR (sv_key v) (orElse (sv_ts v) (sr_ts r)) (orElse (sv_seq v) (sr_seq r)) (sr_nonces r) u | None => mkSR (sv_key v) (sv_ts v) (sv_seq v) [] u end))).
    { destruct (sfind (sv_key v) (ps_tab m)) as [x|] eqn:F; cbn [sr_nonces]; [|intros []]. apply sfind_split in F as (a & b & Ez & Kz & _). apply Ab; [rewrite Ez; apply in_or_app; right; now left|exact Kz]. }
    rewrite En. destruct (nonces_same (so_init o) n _ On ltac:(cbn; lia) Ni2) as (l1 & E). exists l1, []. cbn [sr_nonces] in *. rewrite E. split; [reflexivity|cbn; lia].
Qed.
Lemma sgn_checked : forall o l s t id sys st a, sgn_run o l = Ok (s, t) -> In (ObPass id sys st a) t ->
  (a = None /\ exists n, In (EvCheck sys st (V02 n)) l) \/
  exists v si, a = Some v /\ In (EvCheck sys st (V03 si)) l /\ is_signed si v /\ passes (so_init o) sys v None.
Proof.
  intros o l. unfold sgn_run. generalize (mkPS (Q := sstate) (A := option svals) [] [] 0%N) as s0. induction l as [|e l IH]; intros s0 s t id sys st a H I; cbn [p_run] in H; [injection H as <- <-; destruct I|].
  destruct (p_step _ _ (sgn_check (so_init o)) (sgn_insert (so_init o)) e s0) as [[s1 x]|] eqn:P; cbn [bind fst snd] in H; [|discriminate].
  destruct (p_run _ _ (sgn_check (so_init o)) (sgn_insert (so_init o)) l s1) as [[s2 t2]|] eqn:R; cbn [bind fst snd] in H; [|discriminate]. injection H as <- <-. destruct I as [->|I].
  - apply step_pass in P as (i & q & -> & Ck & _). apply sgn_check_inv in Ck as (_ & C1 & _ & C3). destruct a as [v|].
    + right. destruct (C1 _ eq_refl) as (si & -> & Si & (A & B & C)). exists v, si. splits; auto; [now left|]. unfold passes. splits; intro O; [destruct (A O) as (z & Z & G & _)|destruct (B O) as (z & Z & _)|destruct (C O) as (z & Z & _)]; exists z; splits; auto; discriminate.
    + left. destruct (C3 eq_refl) as (n & ->). split; [reflexivity|]. exists n. now left.
  - destruct (IH _ _ _ _ _ _ _ R I) as [[-> (n & J)]|(v & si & -> & J & K)]; [left; split; [reflexivity|]; exists n; now right|right; exists v, si; splits; try apply K; [reflexivity|now right]].
Qed.

Lemma sgn_tab : forall o l s t, sgn_run o l = Ok (s, t) -> tab_ok (so_init o) (ps_tab s).
Proof. intros o l s t H. apply run_reach in H. eapply tab_ok_reach; [exact H|]. constructor; cbn [ps_tab]; [constructor|constructor|cbn; lia|intros ? []]. Qed.
Lemma checkSigned_total : forall o sys v q, (so_ts o = true -> forall ts, sv_ts v = Some ts -> small sys /\ small ts) -> exists b, checkSigned o sys v q = Ok b.
Proof.
  intros o sys v q H. unfold checkSigned. set (a := if so_ts o then _ else _). assert (E : exists b, a = Ok b).
  { subst a. destruct (so_ts o); [|eauto]. destruct (sv_ts v) as [ts|]; [|eauto]. destruct (H eq_refl _ eq_refl) as [S1 S2]. unfold small in *.
    rewrite i64_ok by lia. cbn [bind]. rewrite i64_ok by lia. cbn [bind]. destruct (so_grace o <? _); eauto. }
  destruct E as [[|] ->]; cbn [bind negb]; [|eauto]. destruct (negb _); eauto.
Qed.
Lemma sgn_accept : forall o l s t sys st si v, sgn_run o l = Ok (s, t) -> small (so_grace o) -> small sys -> is_signed si v ->
  (so_ts o = true -> exists ts, sv_ts v = Some ts /\ Z.abs (sys - ts) <= Z.max (so_grace o) 0 /\ small ts /\
     forall id u w y, In (ObDone id u (Some w)) t -> sv_key w = sv_key v -> sv_ts w = Some y -> y < ts) ->
  (so_seq o = true -> exists n, sv_seq v = Some n /\ forall id u w y, In (ObDone id u (Some w)) t -> sv_key w = sv_key v -> sv_seq w = Some y -> (y < n)%N) ->
  (so_nonce o = true -> exists n, sv_nonce v = Some n /\ forall id u w, In (ObDone id u (Some w)) t -> sv_key w = sv_key v -> sv_nonce w <> Some n) ->
  exists s' id, sgn_run o (l ++ [EvCheck sys st (V03 si)]) = Ok (s', t ++ [ObPass id sys st (Some v)]).
Proof.
  intros o l s t sys st si v H Sg Ss V A B C.
  assert (St : forall x, sfind (sv_key v) (ps_tab s) = Some x -> sr_key x = sv_key v /\ stems s t x).
  { intros x F. apply sfind_split in F as (a & b & E & K & _). split; [exact K|]. apply run_reach in H. eapply (tab_stems (so_init o)); [exact H| |reflexivity|rewrite E; apply in_or_app; right; now left].
    constructor; cbn [ps_tab]; [constructor|constructor|cbn; lia|intros ? []]. }
  assert (Ps : passes (so_init o) sys v (sfind (sv_key v) (ps_tab s))).
  { unfold passes. splits; cbn [so_init so_ts so_seq so_nonce so_grace]; intro O.
    - destruct (A O) as (ts & E & G & _ & F). exists ts. splits; auto. intros x y X Y. destruct (St _ X) as (K & S1 & _). destruct (S1 _ Y) as (i & u & w & I & Kw & Tw). eapply F; eauto. congruence.
    - destruct (B O) as (ts & E & F). exists ts. splits; auto. intros x y X Y. destruct (St _ X) as (K & _ & S1 & _). destruct (S1 _ Y) as (i & u & w & I & Kw & Tw). eapply F; eauto. congruence.
    - destruct (C O) as (ts & E & F). exists ts. splits; auto. intros x X Y. destruct (St _ X) as (K & _ & _ & S1 & _). destruct (S1 _ Y) as (i & u & w & I & Kw & Tw). eapply F; eauto. congruence. }
  assert (Ck : sgn_check (so_init o) sys st (V03 si) (ps_tab s) = Ok (ps_tab s, PGo (Some v))).
  { unfold sgn_check. apply parseSigned_iff in V. rewrite V. cbn [bind]. destruct (checkSigned_total (so_init o) sys v (ps_tab s)) as (b & E).
    - cbn [so_init so_ts]. intros O ts Et. destruct (A O) as (ts' & E & _ & Sm & _). split; [exact Ss|]. congruence.
    - rewrite E. cbn [bind]. apply checkSigned_iff in E. apply E in Ps. subst b. reflexivity. }
  assert (App : forall l0 s0 s1 t0, p_run _ _ (sgn_check (so_init o)) (sgn_insert (so_init o)) l0 s0 = Ok (s1, t0) -> ps_tab s1 = ps_tab s ->
    exists s' id, p_run _ _ (sgn_check (so_init o)) (sgn_insert (so_init o)) (l0 ++ [EvCheck sys st (V03 si)]) s0 = Ok (s', t0 ++ [ObPass id sys st (Some v)])).
  { clear - Ck. induction l0 as [|e l0 IH]; intros s0 s1 t0 R E; cbn [p_run app] in *.
    - injection R as <- <-. cbn [p_step]. rewrite E, Ck. cbn [bind fst snd]. eexists _, _. reflexivity.
    - destruct (p_step _ _ (sgn_check (so_init o)) (sgn_insert (so_init o)) e s0) as [[s2 x]|]; cbn [bind fst snd] in *; [|discriminate].
      destruct (p_run _ _ (sgn_check (so_init o)) (sgn_insert (so_init o)) l0 s2) as [[s3 t3]|] eqn:R2; cbn [bind fst snd] in *; [|discriminate]. injection R as <- <-.
      destruct (IH _ _ _ R2 E) as (s' & i & ->). cbn [bind fst snd]. eexists _, _. reflexivity. }
  eapply App; [exact H|reflexivity].
Qed.
Lemma sgn_defined : forall o l, (forall e, In e l -> small_ev e /\ stamp_small e) -> exists s t, sgn_run o l = Ok (s, t) /\ forall sys st e, In (ObThrow sys st e) t -> e = ETlv.
Proof.
  intros o l. unfold sgn_run. assert (T0 : tab_ok (so_init o) (ps_tab (mkPS (Q := sstate) (A := option svals) [] [] 0%N))) by (constructor; cbn [ps_tab]; [constructor|constructor|cbn; lia|intros ? []]).
  revert T0. generalize (mkPS (Q := sstate) (A := option svals) [] [] 0%N) as s0. induction l as [|e l IH]; intros s0 T0 H; cbn [p_run]; [eexists _, _; split; [reflexivity|intros ? ? ? []]|].
  assert (P : exists s1 x, p_step _ _ (sgn_check (so_init o)) (sgn_insert (so_init o)) e s0 = Ok (s1, x) /\ forall sys st e, x = ObThrow sys st e -> e = ETlv).
  { destruct (H e (or_introl eq_refl)) as [Sm F]. destruct e as [sys st i|id u|id]; cbn [p_step].
    - destruct (sgn_check (so_init o) sys st i (ps_tab s0)) as [[q [|a]]|e] eqn:Ck; [eexists _, _; (split; [reflexivity|discriminate])..|]. destruct i as [si|n]; [|discriminate].
      unfold sgn_check in Ck. destruct (parseSigned si) as [[|v]|e'] eqn:Pp; cbn [bind] in Ck; [discriminate| |].
      + exfalso. destruct (checkSigned_total (so_init o) sys v (ps_tab s0)) as (b & E); [|rewrite E in Ck; discriminate]. intros _ ts Et. split; [apply Sm|].
        apply parseSigned_iff in Pp as [_ [(b & Fb & n & t & In1 & Mt & E)|[_ E]] _ _]; [|congruence]. rewrite Et in E. injection E as <-. destruct (F n) as (t' & Mt' & St'); [exists b; auto|].
        replace ts with t'; [exact St'|]. destruct Mt as (z & Z & -> & _), Mt' as (z' & Z' & -> & _). lia.
      + injection Ck as <-. destruct (parseSigned_err _ _ Pp) as [->|[-> (n & Sn & Nf)]].
        * cbn [catchable]. eexists _, _. split; [reflexivity|]. intros ? ? ? [= _ _ <-]. reflexivity.
        * exfalso. destruct (F n Sn) as (t' & Mt & _). now apply (Nf t').
    - destruct (pend_get id (ps_pend s0)) as [a|] eqn:G; [|eexists _, _; split; [reflexivity|discriminate]]. assert (E : exists q, sgn_insert (so_init o) u a (ps_tab s0) = Ok q).
      { destruct a as [v|]; cbn [sgn_insert]; [|eauto]. destruct (Z.eqb_spec (so_max (so_init o)) 0) as [M|M]; [eauto|]. destruct (insert_ok _ u v _ T0 M) as (q & E & _). eauto. }
      destruct E as (q & ->). cbn [bind]. eexists _, _. split; [reflexivity|discriminate].
    - eexists _, _. split; [reflexivity|discriminate]. }
  destruct P as (s1 & x & P & Hx). rewrite P. cbn [bind fst snd]. destruct (IH s1) as (s2 & t2 & R & Ht); [|intros y Y; apply H; now right|].
  - eapply tab_ok_reach; [econstructor; [exact P|constructor]|exact T0].
  - rewrite R. cbn [bind fst snd]. eexists _, _. split; [reflexivity|]. intros sys st e' [X|X]; [now apply Hx in X|eauto].
Qed.

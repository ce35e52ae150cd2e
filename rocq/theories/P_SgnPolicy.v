(* Proofs for C51 *)
From Verif Require Import Base BaseLemmas M_Tlv S_Tlv P_Tlv P_Block M_Str M_Name S_Name P_NameUri M_Packet M_Ims P_Ims M_Control M_Signer M_IntPolicy S_IntPolicy P_IntPolicy P_CmdPolicy.
From Coq Require Import ZArith Lia ZifyBool ZifyNat ZifyN Sorting.Sorted Permutation.
Open Scope N_scope.
Open Scope Z_scope.

Definition skeys (q : sstate) := map sr_key q.
Definition sle (a b : srec) : Prop := sr_ref a <= sr_ref b.
Definition others (k : list key) (q : sstate) : sstate := filter (fun x => negb (names_eqb (sr_key x) k)) q.
Lemma sfind_split : forall k q x, sfind k q = Some x -> exists a b, q = a ++ x :: b /\ sr_key x = k /\ forall y, In y a -> sr_key y <> k.
Proof.
  intros k q x. induction q as [|y q IH]; cbn [sfind List.find]; [discriminate|]. destruct (names_eqb (sr_key y) k) eqn:E.
  - intros [= ->]. apply names_eqb_eq in E. exists [], q. splits; auto.
  - intro H. apply names_eqb_neq in E. destruct (IH H) as (a & b & -> & K & N). exists (y :: a), b. splits; auto. intros z [<-|Z]; auto.
Qed.
Lemma sfind_none : forall k q y, sfind k q = None -> In y q -> sr_key y <> k.
Proof. intros k q r H I. apply (find_none _ _ H) in I. now apply names_eqb_neq in I. Qed.
Lemma others_id : forall k q, (forall y, In y q -> sr_key y <> k) -> others k q = q.
Proof.
  intros k q. induction q as [|x q IH]; intro H; cbn [others filter]; [reflexivity|]. pose proof (H x (or_introl eq_refl)) as Hx. apply names_eqb_neq in Hx. rewrite Hx. cbn [negb].
  f_equal. apply IH. intros y Y. apply H. now right.
Qed.
Lemma others_app : forall k a b, others k (a ++ b) = others k a ++ others k b.
Proof. intros. apply filter_app. Qed.
Lemma nodup_tail : forall q a x b, NoDup (skeys q) -> q = a ++ x :: b -> forall y, In y (a ++ b) -> sr_key y <> sr_key x.
Proof.
  intros q a x b N -> y Y E. unfold skeys in N. rewrite map_app in N. cbn [map] in N. apply NoDup_remove_2 in N. apply N. rewrite <- map_app, <- E. now apply in_map.
Qed.
Lemma others_split : forall q a x b, NoDup (skeys q) -> q = a ++ x :: b -> others (sr_key x) q = a ++ b.
Proof.
  intros q a x b N E. pose proof (nodup_tail _ _ _ _ N E) as T. subst q. rewrite others_app. cbn [others filter]. rewrite names_eqb_refl. cbn [negb].
  rewrite <- (others_id (sr_key x) (a ++ b)) by exact T. now rewrite others_app.
Qed.
Lemma sinsert_form : forall r q, exists p s, sinsert r q = p ++ r :: s /\ q = p ++ s /\ ((forall x, In x q -> sle x r) -> s = []) /\
  (StronglySorted sle q -> StronglySorted sle (sinsert r q)).
Proof.
  intros r q. induction q as [|x q (p & s & E & Q & L & Ss)]; cbn [sinsert]; [exists [], []; splits; auto; repeat constructor|].
  destruct (Z.ltb_spec (sr_ref r) (sr_ref x)) as [H|H].
  - exists [], (x :: q). splits; auto.
    + intro B. specialize (B x (or_introl eq_refl)). unfold sle in B. lia.
    + intro B. inversion B as [|? ? B1 B2]; subst. constructor; [exact B|]. rewrite Forall_forall in *. intros y [<-|Y]; unfold sle in *; [lia|]. apply B2 in Y. lia.
  - exists (x :: p), s. splits.
    + now rewrite E.
    + now rewrite Q.
    + intro B. apply L. intros y Y. apply B. right. exact Y.
    + intro B. inversion B as [|x0 l0 B1 B2 Eq]. constructor; [apply Ss; exact B1|]. rewrite Forall_forall in *. intros y Y. rewrite E in Y. rewrite Q in B2.
      apply in_app_or in Y as [Y|[<-|Y]]; [apply B2; apply in_or_app; auto|exact H|apply B2; apply in_or_app; auto].
Qed.
Lemma smodify_split : forall k f a x b prev, (forall y, In y a -> sr_key y <> k) -> sr_key x = k ->
  smodify k f prev (a ++ x :: b) =
  if (match rev (prev ++ a) with p :: _ => negb (sr_ref (f x) <? sr_ref p) | [] => true end) && (match b with p :: _ => negb (sr_ref p <? sr_ref (f x)) | [] => true end)
  then (prev ++ a) ++ f x :: b else sinsert (f x) ((prev ++ a) ++ b).
Proof.
  intros k f a. induction a as [|y a IH]; intros x b prev N K; cbn [app smodify].
  - rewrite K, names_eqb_refl, app_nil_r. reflexivity.
  - pose proof (N y (or_introl eq_refl)) as Ny. apply names_eqb_neq in Ny. rewrite Ny. rewrite IH; [|intros z Z; apply N; now right|exact K]. rewrite <- !app_assoc. reflexivity.
Qed.
Lemma ss_app_inv : forall a x b, StronglySorted sle (a ++ x :: b) -> (forall y, In y a -> sle y x) /\ (forall y, In y b -> sle x y) /\ StronglySorted sle (a ++ b).
Proof.
  induction a as [|z a IH]; cbn [app]; intros x b H; inversion H as [|? ? H1 H2]; subst; rewrite Forall_forall in *.
  - splits; auto. intros y [].
  - destruct (IH _ _ H1) as (A & B & C). splits; auto.
    + intros y [<-|Y]; [apply H2; apply in_or_app; right; now left|auto].
    + constructor; [exact C|]. rewrite Forall_forall. intros y Y. apply H2. apply in_app_or in Y as [Y|Y]; apply in_or_app; [now left|right; now right].
Qed.
Lemma ss_app_intro : forall a x b, StronglySorted sle (a ++ b) -> (forall y, In y a -> sle y x) -> (forall y, In y b -> sle x y) -> StronglySorted sle (a ++ x :: b).
Proof.
  induction a as [|z a IH]; cbn [app]; intros x b H A B; [constructor; [exact H|rewrite Forall_forall; exact B]|]. inversion H as [|? ? H1 H2]; subst. constructor.
  - apply IH; auto. intros y Y. apply A. now right.
  - rewrite Forall_forall in *. intros y Y. apply in_app_or in Y as [Y|[<-|Y]]; [apply H2; apply in_or_app; auto|apply A; now left|apply H2; apply in_or_app; auto].
Qed.
Lemma ss_last : forall (a : sstate) p r, rev a = p :: r -> StronglySorted sle a -> forall y, In y a -> sle y p.
Proof.
  intros a p r E S0 y Y. assert (a = rev r ++ [p]) as -> by (rewrite <- (rev_involutive a), E; reflexivity). apply ss_app_inv in S0 as (A & _ & _).
  apply in_app_or in Y as [Y|[<-|[]]]; [auto|unfold sle; lia].
Qed.
Lemma ss_left : forall (a b : sstate), StronglySorted sle (a ++ b) -> StronglySorted sle a.
Proof.
  induction a as [|x a IH]; cbn [app]; intros b H; [constructor|]. inversion H as [|? ? H1 H2]; subst. constructor; [eauto|]. rewrite Forall_forall in *. intros y Y. apply H2. apply in_or_app; auto.
Qed.
(* modifying the record of a key: what comes out *)
Lemma smodify_form : forall k f q a x b, StronglySorted sle q -> q = a ++ x :: b -> sr_key x = k -> (forall y, In y a -> sr_key y <> k) ->
  exists p s, smodify k f [] q = p ++ f x :: s /\ p ++ s = a ++ b /\ StronglySorted sle (p ++ f x :: s) /\
    ((forall y, In y (a ++ b) -> sr_ref y <= sr_ref (f x)) -> s = [] \/ s = b /\ p = a) /\
    ((forall y, In y (a ++ b) -> sr_ref y < sr_ref (f x)) -> s = []) /\
    (sr_ref (f x) = sr_ref x -> p = a /\ s = b).
Proof.
  intros k f q a x b S0 -> K N. rewrite (smodify_split k f a x b [] N K). cbn [app]. destruct (ss_app_inv _ _ _ S0) as (A & B & C).
  assert (G : (match rev a with p :: _ => negb (sr_ref (f x) <? sr_ref p) | [] => true end) && (match b with p :: _ => negb (sr_ref p <? sr_ref (f x)) | [] => true end) = true <->
     (forall y, In y a -> sr_ref y <= sr_ref (f x)) /\ (forall y, In y b -> sr_ref (f x) <= sr_ref y)).
  { split.
    - intro G. apply andb_true_iff in G as [G1 G2]. split.
      + intros y Y. destruct (rev a) as [|p r] eqn:Er; [assert (a = []) as -> by (rewrite <- (rev_involutive a), Er; reflexivity); destruct Y|].
        pose proof (ss_last _ _ _ Er (ss_left _ _ S0) y Y). unfold sle in *. lia.
      + intros y Y. destruct b as [|p r]; [destruct Y|]. assert (Sb : StronglySorted sle (p :: r)). { clear - C. induction a; cbn [app] in C; [exact C|]. inversion C; auto. }
        inversion Sb as [|? ? _ Fb]; subst. rewrite Forall_forall in Fb. destruct Y as [<-|Y]; [lia|]. apply Fb in Y. unfold sle in Y. lia.
    - intros [G1 G2]. apply andb_true_iff. split.
      + destruct (rev a) as [|p r] eqn:Er; [reflexivity|]. assert (I : In p a) by (apply in_rev; rewrite Er; now left). apply G1 in I. lia.
      + destruct b as [|p r]; [reflexivity|]. specialize (G2 p (or_introl eq_refl)). lia. }
  destruct (_ && _) eqn:Ok.
  - destruct (proj1 G eq_refl) as [G1 G2]. exists a, b. splits; auto.
    + apply ss_app_intro; auto.
    + intro H. destruct b as [|y b']; [reflexivity|]. assert (sr_ref y < sr_ref (f x)) by (apply H; apply in_or_app; right; now left). specialize (G2 y (or_introl eq_refl)). lia.
  - destruct (sinsert_form (f x) (a ++ b)) as (p & s & E & Q & L & Ss). exists p, s. rewrite E. splits; auto.
    + rewrite <- E. apply Ss. exact C.
    + intro H. apply L. intros y Y. apply H in Y. unfold sle. lia.
    + intro H. exfalso. assert (false = true); [|discriminate]. apply G. split; intros y Y; [apply A in Y|apply B in Y]; unfold sle in Y; lia.
Qed.

(* ---- the insertion ---- *)
Definition upd1 (u : Z) (v : svals) (r : option srec) : srec :=
  match r with
  | None => mkSR (sv_key v) (sv_ts v) (sv_seq v) [] u
  | Some r => mkSR (sv_key v) (orElse (sv_ts v) (sr_ts r)) (orElse (sv_seq v) (sr_seq r)) (sr_nonces r) u
  end.
Definition nonces_after (o : sopts) (n : option bytes) (l : list bytes) : list bytes :=
  match n with
  | Some n => if so_nonce o && negb (so_maxNonce o =? 0) then
                let l' := if existsb (bytes_eqb n) l then l else l ++ [n] in
                if (0 <=? so_maxNonce o) && (so_maxNonce o <? Z.of_N (nlen l')) then tl l' else l'
              else l
  | None => l
  end.
Definition upd (o : sopts) (u : Z) (v : svals) (r : option srec) : srec :=
  let x := upd1 u v r in mkSR (sr_key x) (sr_ts x) (sr_seq x) (nonces_after o (sv_nonce v) (sr_nonces x)) (sr_ref x).
Record tab_ok (o : sopts) (q : sstate) : Prop := {
  to_nodup : NoDup (skeys q);
  to_sorted : StronglySorted sle q;
  to_max : 0 <= so_max o -> Z.of_N (nlen q) <= so_max o;
  to_nonces : forall r, In r q -> NoDup (sr_nonces r) /\ (0 <= so_maxNonce o -> Z.of_N (nlen (sr_nonces r)) <= so_maxNonce o) }.
Lemma nodup_perm_keys : forall p (x : srec) s k q, p ++ s = others k q -> sr_key x = k -> NoDup (skeys q) -> NoDup (skeys (p ++ x :: s)).
Proof.
  intros p x s k q E K N. unfold skeys. rewrite map_app. cbn [map]. apply NoDup_Add with (a := sr_key x) (l := map sr_key (p ++ s)).
  - rewrite map_app. apply Add_app.
  - split.
    + rewrite E. clear - N. unfold others. induction q as [|y q IH]; cbn [filter]; [constructor|]. inversion N as [|? ? A B]; subst. destruct (negb _); [|auto]. cbn [map]. constructor; [|auto].
      intro X. apply A. apply in_map_iff in X as (z & <- & Z). apply filter_In in Z as [Z _]. now apply in_map.
    + rewrite E. intro X. apply in_map_iff in X as (z & Z1 & Z2). unfold others in Z2. apply filter_In in Z2 as [_ Z2]. rewrite Z1, K, names_eqb_refl in Z2. discriminate.
Qed.
Lemma others_nlen : forall k q, (nlen (others k q) <= nlen q)%N.
Proof. intros k q. induction q as [|x q IH]; cbn [others filter]; [lia|]. destruct (negb _); rewrite ?nlen_cons; unfold others in *; lia. Qed.
Lemma insert_form : forall o u v q, tab_ok o q -> so_max o <> 0 ->
  exists p s, p ++ s = others (sv_key v) q /\ StronglySorted sle (p ++ upd o u v (sfind (sv_key v) q) :: s) /\
    insertRecord o u v q = Ok (if (0 <=? so_max o) && (so_max o <? Z.of_N (nlen (p ++ upd o u v (sfind (sv_key v) q) :: s))) then tl (p ++ upd o u v (sfind (sv_key v) q) :: s) else p ++ upd o u v (sfind (sv_key v) q) :: s) /\
    ((forall y, In y q -> sr_ref y <= u) -> s = [] \/ exists x, q = p ++ x :: s) /\
    ((forall y, In y q -> sr_ref y < u) -> s = []) /\
    (sfind (sv_key v) q <> None -> nlen (p ++ upd o u v (sfind (sv_key v) q) :: s) = nlen q).
Proof.
  intros o u v q [N S0 M NN] Mx. unfold insertRecord.
  set (q1 := match sfind (sv_key v) q with None => _ | Some _ => _ end).
  assert (F1 : exists p s, q1 = p ++ upd1 u v (sfind (sv_key v) q) :: s /\ p ++ s = others (sv_key v) q /\ StronglySorted sle q1 /\
     ((forall y, In y q -> sr_ref y <= u) -> s = [] \/ exists x, q = p ++ x :: s) /\ ((forall y, In y q -> sr_ref y < u) -> s = []) /\
     (sfind (sv_key v) q <> None -> nlen q1 = nlen q)).
  { subst q1. destruct (sfind (sv_key v) q) as [x|] eqn:F.
    - destruct (sfind_split _ _ _ F) as (a & b & E & K & Na).
      destruct (smodify_form (sv_key v) (fun r => mkSR (sr_key r) (orElse (sv_ts v) (sr_ts r)) (orElse (sv_seq v) (sr_seq r)) (sr_nonces r) u) q a x b S0 E K Na) as (p & s & E1 & E2 & E3 & E4 & E5 & _).
      rewrite K in *. exists p, s. rewrite E1. assert (Sub : forall y, In y (a ++ b) -> In y q) by (intros y Y; rewrite E; apply in_app_or in Y as [Y|Y]; apply in_or_app; [now left|right; now right]).
      splits; auto.
      + rewrite E2, <- K. symmetry. now apply others_split.
      + intro L. destruct E4 as [->|[-> ->]]; [intros y Y; cbn [sr_ref]; auto|now left|right; exists x; exact E].
      + intros _. rewrite nlen_app, nlen_cons, E, nlen_app, nlen_cons. apply (f_equal nlen) in E2. rewrite !nlen_app in E2. lia.
    - destruct (sinsert_form (mkSR (sv_key v) (sv_ts v) (sv_seq v) [] u) q) as (p & s & E & Q & L & Ss). exists p, s. rewrite E. splits; auto.
      + rewrite others_id; [now symmetry|]. intros y Y. now apply (sfind_none _ _ _ F).
      + rewrite <- E. auto.
      + intro H. apply L. intros y Y. unfold sle. cbn [sr_ref]. apply H in Y. lia.
      + intro X. now contradiction X. }
  destruct F1 as (p & s & E1 & E2 & E3 & E4 & E5 & E6).
  set (x1 := upd1 u v (sfind (sv_key v) q)) in *. assert (K1 : sr_key x1 = sv_key v) by (subst x1; unfold upd1; destruct (sfind (sv_key v) q); reflexivity).
  assert (Nk : forall y, In y (p ++ s) -> sr_key y <> sv_key v). { intros y Y. rewrite E2 in Y. unfold others in Y. apply filter_In in Y as [_ Y]. apply negb_true_iff in Y. now apply names_eqb_neq in Y. }
  assert (Fq1 : sfind (sv_key v) q1 = Some x1).
  { rewrite E1. clear - Nk K1. induction p as [|y p IH]; cbn [app sfind List.find].
    - rewrite K1, names_eqb_refl. reflexivity.
    - pose proof (Nk y (or_introl eq_refl)) as Ny. apply names_eqb_neq in Ny. rewrite Ny. apply IH. intros z Z. apply Nk. now right. }
  assert (Nx : NoDup (sr_nonces x1) /\ (0 <= so_maxNonce o -> Z.of_N (nlen (sr_nonces x1)) <= so_maxNonce o)).
  { subst x1. unfold upd1. destruct (sfind (sv_key v) q) as [x|] eqn:F; cbn [sr_nonces]; [|split; [constructor|cbn; lia]]. apply sfind_split in F as (a & b & -> & _). apply NN. apply in_or_app. right; now left. }
  set (x2 := upd o u v (sfind (sv_key v) q)). assert (X2 : x2 = mkSR (sr_key x1) (sr_ts x1) (sr_seq x1) (nonces_after o (sv_nonce v) (sr_nonces x1)) (sr_ref x1)) by reflexivity.
  assert (S2 : StronglySorted sle (p ++ x2 :: s)). { rewrite E1 in E3. apply ss_app_inv in E3 as (A & B & C). apply ss_app_intro; auto. }
  set (m := match sv_nonce v with Some _ => _ | None => _ end).
  assert (Em : m = Ok (p ++ x2 :: s)).
  { subst m. destruct (sv_nonce v) as [n|] eqn:Nn.
    - destruct (so_nonce o && negb (so_maxNonce o =? 0)) eqn:B.
      + rewrite Fq1. set (l := if existsb (bytes_eqb n) (sr_nonces x1) then sr_nonces x1 else sr_nonces x1 ++ [n]).
        assert (Ll : (0 <= so_maxNonce o -> Z.of_N (nlen l) <= so_maxNonce o + 1)). { destruct Nx as [_ Nx]. intro P. specialize (Nx P). subst l. destruct (existsb _ _); [lia|]. rewrite nlen_app. unfold nlen in *. cbn [length]. lia. }
        replace (_ && negb (Z.of_N (nlen l) =? so_maxNonce o + 1)) with false by lia.
        destruct (smodify_form (sv_key v) (fun r => mkSR (sr_key r) (sr_ts r) (sr_seq r) (if (0 <=? so_maxNonce o) && (so_maxNonce o <? Z.of_N (nlen l)) then tl l else l) (sr_ref r)) q1 p x1 s E3 E1 K1) as (p' & s' & G1 & _ & _ & _ & _ & G2).
        { intros y Y. apply Nk. apply in_or_app; now left. }
        destruct (G2 eq_refl) as [-> ->]. rewrite G1. do 3 f_equal. rewrite X2. f_equal. unfold nonces_after. rewrite B. reflexivity.
      + rewrite E1. do 3 f_equal. rewrite X2. unfold nonces_after. rewrite B. destruct x1; reflexivity.
    - rewrite E1. do 3 f_equal. rewrite X2. unfold nonces_after. destruct x1; reflexivity. }
  rewrite Em. cbn [bind]. exists p, s. splits; auto.
  - destruct ((0 <=? so_max o) && (so_max o <? Z.of_N (nlen (p ++ x2 :: s)))) eqn:B; [|reflexivity]. assert (Lq : Z.of_N (nlen (p ++ x2 :: s)) <= so_max o + 1).
    { rewrite nlen_app, nlen_cons. pose proof (others_nlen (sv_key v) q). rewrite <- E2, nlen_app in H. specialize (M ltac:(lia)). lia. }
    replace (Z.of_N (nlen (p ++ x2 :: s)) =? so_max o + 1) with true by lia. reflexivity.
  - intro H. rewrite <- (E6 H), E1, !nlen_app, !nlen_cons. reflexivity.
Qed.
Lemma tl_suffix : forall A (l : list A), exists d, l = d ++ tl l.
Proof. intros A [|x l]; [exists []; reflexivity|exists [x]; reflexivity]. Qed.
Lemma ss_tl : forall (q : sstate), StronglySorted sle q -> StronglySorted sle (tl q).
Proof. intros q H. destruct H; [constructor|assumption]. Qed.
Lemma nonces_ok : forall o n l, NoDup l -> (0 <= so_maxNonce o -> Z.of_N (nlen l) <= so_maxNonce o) -> NoDup (nonces_after o n l) /\ (0 <= so_maxNonce o -> Z.of_N (nlen (nonces_after o n l)) <= so_maxNonce o).
Proof.
  intros o n l N L. unfold nonces_after. destruct n as [n|]; [|auto]. destruct (_ && _); [|auto].
  set (l' := if existsb (bytes_eqb n) l then l else l ++ [n]).
  assert (N' : NoDup l'). { subst l'. destruct (existsb (bytes_eqb n) l) eqn:E; [exact N|]. apply NoDup_Add with (a := n) (l := l); [|split; [exact N|]].
    - rewrite <- (app_nil_r l) at 1. apply Add_app.
    - intro I. assert (existsb (bytes_eqb n) l = true) by (apply existsb_exists; exists n; split; [exact I|apply bytes_eqb_refl]). congruence. }
  assert (L' : 0 <= so_maxNonce o -> Z.of_N (nlen l') <= so_maxNonce o + 1). { intro P. specialize (L P). subst l'. destruct (existsb _ _); [lia|]. rewrite nlen_app. unfold nlen in *. cbn [length]. lia. }
  destruct (_ && _) eqn:B.
  - destruct l' as [|y l']; cbn [tl]; [split; [constructor|cbn; lia]|]. inversion N'; subst. split; [assumption|]. intro P. specialize (L' P). rewrite nlen_cons in L'. lia.
  - split; [exact N'|]. lia.
Qed.
Lemma insert_ok : forall o u v q, tab_ok o q -> so_max o <> 0 -> exists q', insertRecord o u v q = Ok q' /\ tab_ok o q' /\
  (forall r, In r q' -> In r q \/ r = upd o u v (sfind (sv_key v) q)) .
Proof.
  intros o u v q T Mx. destruct (insert_form o u v q T Mx) as (p & s & E1 & E2 & E3 & _ & _ & E6). set (x := upd o u v (sfind (sv_key v) q)) in *.
  assert (Kx : sr_key x = sv_key v) by (subst x; unfold upd, upd1; destruct (sfind (sv_key v) q); reflexivity).
  pose proof (nodup_perm_keys p x s _ q E1 Kx (to_nodup _ _ T)) as N.
  assert (In0 : forall r, In r (p ++ x :: s) -> In r q \/ r = x).
  { intros r R. apply in_app_or in R. assert (J : In r (p ++ s) -> In r q) by (intro J; rewrite E1 in J; unfold others in J; now apply filter_In in J).
    destruct R as [R|[R|R]]; [left; apply J; apply in_or_app; auto|auto|left; apply J; apply in_or_app; auto]. }
  assert (NNx : forall r, In r (p ++ x :: s) -> NoDup (sr_nonces r) /\ (0 <= so_maxNonce o -> Z.of_N (nlen (sr_nonces r)) <= so_maxNonce o)).
  { intros r R. destruct (In0 _ R) as [R'|R']; [now apply T in R'|]. rewrite R'. subst x. unfold upd. cbn [sr_nonces]. apply nonces_ok; unfold upd1; destruct (sfind (sv_key v) q) as [z|] eqn:F; cbn [sr_nonces]; try constructor; try (cbn; lia);
    apply sfind_split in F as (a & b & -> & _); apply T; apply in_or_app; right; now left. }
  assert (Lq : 0 <= so_max o -> Z.of_N (nlen (p ++ x :: s)) <= so_max o + 1).
  { intro P. rewrite nlen_app, nlen_cons. pose proof (others_nlen (sv_key v) q). rewrite <- E1, nlen_app in H. pose proof (to_max _ _ T P). lia. }
  destruct ((0 <=? so_max o) && (so_max o <? Z.of_N (nlen (p ++ x :: s)))) eqn:B.
  - exists (tl (p ++ x :: s)). destruct (tl_suffix _ (p ++ x :: s)) as [d D]. assert (Sub : forall r, In r (tl (p ++ x :: s)) -> In r (p ++ x :: s)) by (intros r R; rewrite D; apply in_or_app; auto).
    splits; [exact E3| |intros r R; apply In0; auto]. constructor.
    + destruct (p ++ x :: s); [constructor|]. cbn [tl]. cbn [skeys map] in N. now inversion N.
    + now apply ss_tl.
    + intro P. specialize (Lq P). destruct (p ++ x :: s); cbn [tl] in *; [cbn in *; lia|]. rewrite nlen_cons in Lq. lia.
    + intros r R. apply NNx. auto.
  - exists (p ++ x :: s). splits; [exact E3| |exact In0]. constructor; auto. lia.
Qed.

(* Proofs about M_Name: canonical order, successors, slices *)
From Coq Require Import Lia ZifyBool ZifyNat ZifyN.
From Verif Require Import Base BaseLemmas M_Tlv P_Tlv S_Tlv P_Block M_Str P_Str M_Name S_Name P_Name P_NameUri.

(* ---- first difference ---- *)
Section Diff.
Context {A : Type} (R : A -> A -> Prop).
Definition diffR (a b : list A) : Prop :=
  exists p x y a' b', a = p ++ x :: a' /\ b = p ++ y :: b' /\ R x y.
Definition lexR (a b : list A) : Prop := (exists s, s <> [] /\ b = a ++ s) \/ diffR a b.

Lemma diffR_nil_l : forall b, ~ diffR [] b.
Proof. intros b (p & x & y & a' & b' & H & _). destruct p; discriminate. Qed.
Lemma diffR_nil_r : forall a, ~ diffR a [].
Proof. intros a (p & x & y & a' & b' & _ & H & _). destruct p; discriminate. Qed.
Lemma diffR_cons : forall x y a b, diffR (x :: a) (y :: b) <-> R x y \/ x = y /\ diffR a b.
Proof.
  intros x y a b. split.
  - intros (p & u & v & a' & b' & Ha & Hb & H). destruct p as [|z p]; cbn in *.
    + injection Ha as -> ->. injection Hb as -> ->. now left.
    + injection Ha as -> ->. injection Hb as -> ->. right. split; auto. exists p, u, v, a', b'. auto.
  - intros [H|[-> (p & u & v & a' & b' & -> & -> & H)]].
    + exists [], x, y, a, b. auto.
    + exists (y :: p), u, v, a', b'. auto.
Qed.
Lemma lexR_nil_r : forall a, ~ lexR a [].
Proof. intros a [(s & N & H)|H]; [|now apply diffR_nil_r in H]. symmetry in H. apply app_eq_nil in H as [_ ->]. easy. Qed.
Lemma lexR_nil_l : forall b, lexR [] b <-> b <> [].
Proof.
  intro b. split.
  - intros [(s & N & ->)|H]; [exact N|now apply diffR_nil_l in H].
  - intro N. left. exists b. auto.
Qed.
Lemma lexR_cons : forall x y a b, lexR (x :: a) (y :: b) <-> R x y \/ x = y /\ lexR a b.
Proof.
  intros x y a b. unfold lexR. rewrite diffR_cons. split.
  - intros [(s & N & H)|[H|[-> H]]]; auto. cbn in H. injection H as -> ->. right. split; auto. left. eauto.
  - intros [H|[-> [(s & N & ->)|H]]]; auto. left. exists s. auto.
Qed.

Hypothesis irr : forall x, ~ R x x.
Hypothesis tr : forall x y z, R x y -> R y z -> R x z.
Hypothesis tri : forall x y, R x y \/ x = y \/ R y x.

Lemma lexR_irr : forall a, ~ lexR a a.
Proof.
  induction a as [|x a IH]; [apply lexR_nil_r|]. rewrite lexR_cons. intros [H|[_ H]]; [now apply irr in H|auto].
Qed.
Lemma lexR_trans : forall a b c, lexR a b -> lexR b c -> lexR a c.
Proof.
  induction a as [|x a IH]; intros [|y b] [|z c]; rewrite ?lexR_nil_l, ?lexR_cons; try easy;
    try (intros H; now apply lexR_nil_r in H); try (intros _ H; now apply lexR_nil_r in H).
  intros [H|[-> H]] [G|[-> G]]; eauto.
Qed.
Lemma lexR_tri : forall a b, lexR a b \/ a = b \/ lexR b a.
Proof.
  induction a as [|x a IH]; intros [|y b]; rewrite ?lexR_nil_l, ?lexR_cons; auto.
  - left. discriminate.
  - right. right. discriminate.
  - destruct (tri x y) as [H|[-> |H]]; auto. destruct (IH b) as [H|[-> |H]]; auto.
Qed.
Lemma lexR_prefix_between : forall p a b c, lexR (p ++ a) b \/ b = p ++ a -> lexR b (p ++ c) \/ b = p ++ c ->
  exists s, b = p ++ s.
Proof.
  induction p as [|x p IH]; intros a b c H G; [exists b; reflexivity|].
  destruct b as [|y b]; cbn [app] in *.
  - destruct H as [H|H]; [now apply lexR_nil_r in H|discriminate].
  - assert (E : x = y /\ exists s, b = p ++ s); [|destruct E as [-> [s ->]]; exists s; reflexivity].
    rewrite !lexR_cons in *. destruct H as [[H|[-> H]]|H]; [|split; auto|].
    + destruct G as [[G|[-> G]]|G].
      * destruct (irr x). eapply tr; eauto.
      * now apply irr in H.
      * injection G as -> ->. now apply irr in H.
    + apply (IH a b c); auto. destruct G as [[G|[_ G]]|G]; auto.
      * now apply irr in G.
      * injection G as ->. auto.
    + injection H as -> ->. split; eauto.
Qed.
End Diff.

(* ---- octets ---- *)
Definition byteR (x y : byte) : Prop := bn x < bn y.
Lemma byteR_tri : forall x y, byteR x y \/ x = y \/ byteR y x.
Proof.
  intros x y. unfold byteR. destruct (N.lt_trichotomy (bn x) (bn y)) as [H|[H|H]]; auto.
  right. left. now apply bn_inj.
Qed.

Lemma lex_lt_diffR : forall a b, lex_lt a b <-> diffR byteR a b.
Proof. reflexivity. Qed.

Lemma lex_lt_irr : forall a, ~ lex_lt a a.
Proof.
  intros a H. apply (lexR_irr byteR (fun x => N.lt_irrefl (bn x)) a). now right.
Qed.
Lemma diffR_of_lexR : forall a b : bytes, nlen a = nlen b -> lexR byteR a b -> lex_lt a b.
Proof.
  intros a b L [(s & N & ->)|H]; auto. rewrite nlen_app in L. destruct s; [easy|]. rewrite nlen_cons in L. lia.
Qed.
Lemma lex_lt_trans : forall a b c, nlen a = nlen b -> nlen b = nlen c -> lex_lt a b -> lex_lt b c -> lex_lt a c.
Proof.
  intros a b c L L' H G. apply diffR_of_lexR; [lia|].
  eapply lexR_trans; [|right; exact H|right; exact G]. intros x y z. unfold byteR. lia.
Qed.
Lemma lex_lt_tri : forall a b, nlen a = nlen b -> lex_lt a b \/ a = b \/ lex_lt b a.
Proof.
  intros a b L. destruct (lexR_tri byteR byteR_tri a b) as [H|[H|H]]; auto;
    [left|right; right]; apply diffR_of_lexR; auto.
Qed.

Lemma memcmp_neg : forall a b, (memcmp a b < 0)%Z <-> lex_lt a b.
Proof.
  induction a as [|x a IH]; intros [|y b]; rewrite lex_lt_diffR; cbn [memcmp];
    try (split; [lia|]; intro H; first [now apply diffR_nil_l in H|now apply diffR_nil_r in H]).
  rewrite diffR_cons. unfold byteR at 1. destruct (bn x <? bn y) eqn:E1; [split; [|lia]; intro; left; lia|].
  destruct (bn y <? bn x) eqn:E2.
  - split; [lia|]. intros [H|[-> _]]; lia.
  - assert (x = y) by (apply bn_inj; lia). subst. rewrite IH, lex_lt_diffR. split; [auto|]. intros [H|[_ H]]; [lia|auto].
Qed.
Lemma memcmp_anti : forall a b, memcmp b a = (- memcmp a b)%Z.
Proof.
  induction a as [|x a IH]; intros [|y b]; cbn [memcmp]; auto.
  destruct (bn x <? bn y) eqn:E1, (bn y <? bn x) eqn:E2; auto. lia.
Qed.
Lemma memcmp_refl : forall a, memcmp a a = 0%Z.
Proof. intro a. pose proof (memcmp_anti a a). lia. Qed.

Lemma lex_lt_app : forall a b x y, lex_lt a b -> lex_lt (a ++ x) (b ++ y).
Proof.
  intros a b x y (p & u & v & a' & b' & -> & -> & H). exists p, u, v, (a' ++ x), (b' ++ y).
  rewrite <- !app_assoc. auto.
Qed.
Lemma lex_lt_app_same : forall p a b, lex_lt a b -> lex_lt (p ++ a) (p ++ b).
Proof.
  intros p a b (q & u & v & a' & b' & -> & -> & H). exists (p ++ q), u, v, a', b'.
  rewrite <- !app_assoc. auto.
Qed.

(* numbers of the same size are ordered like their big-endian octets *)
Lemma be_val_lex : forall a b, nlen a = nlen b -> be_val a < be_val b -> lex_lt a b.
Proof.
  induction a as [|x a IH]; intros [|y b] L; rewrite ?nlen_cons in L; try (change (nlen (@nil byte)) with 0 in L; lia).
  - rewrite !be_val_cons. assert (L' : nlen a = nlen b) by lia. rewrite L'. intro H.
    apply lex_lt_diffR, diffR_cons. pose proof (be_val_lt a) as Ba. pose proof (be_val_lt b) as Bb. rewrite L' in Ba.
    destruct (byteR_tri x y) as [G|[-> |G]]; [now left|right|].
    + split; auto. apply IH; auto. nia.
    + unfold byteR in G. exfalso. generalize dependent (256 ^ nlen b). intros. nia.
Qed.

Lemma be_enc_lex : forall k n m, n < m -> m < 256 ^ N.of_nat k -> lex_lt (be_enc k n) (be_enc k m).
Proof.
  intros k n m H L. apply be_val_lex.
  - now rewrite !be_enc_len.
  - rewrite !be_val_enc_small; lia.
Qed.

Lemma first_lt : forall x y a b, bn x < bn y -> lex_lt (x :: a) (y :: b).
Proof. intros. exists [], x, y, a, b. auto. Qed.
Lemma cons_lt : forall x a b, lex_lt a b -> lex_lt (x :: a) (x :: b).
Proof. intros. now apply (lex_lt_app_same [x]). Qed.

Lemma encVarNumber_lex : forall n m, n < m -> m < two64 -> lex_lt (encVarNumber n) (encVarNumber m).
Proof.
  intros n m H L. unfold encVarNumber, two64 in *.
  repeat match goal with |- context [if ?b then _ else _] => destruct b eqn:? end; try lia;
    try (apply first_lt; rewrite ?bn_nb; lia);
    try (apply cons_lt, be_enc_lex; cbn; lia).
Qed.

(* ---- components ---- *)
Lemma is_varnum_len_unique : forall n d d', is_varnum n d -> is_varnum n d' -> nlen d = nlen d' -> d = d'.
Proof.
  intros n d d' H H' L. destruct H; inversion H'; subst; rewrite ?nlen_cons in L; change (nlen (@nil byte)) with 0 in L;
    try lia; f_equal; try (apply bn_inj; congruence);
    rewrite !big_endian_be_val in *; apply be_val_inj; congruence.
Qed.
Lemma shortest_varnum_unique : forall n d, n < 2 ^ 64 -> shortest_varnum n d -> d = encVarNumber n.
Proof.
  intros n d L [V S]. pose proof (encVarNumber_shortest n L) as [V' S'].
  apply (is_varnum_len_unique n); auto. specialize (S _ V'). specialize (S' _ V). lia.
Qed.

Lemma comp_shortest_hdr : forall c h, comp_shortest c -> c_type c < two32 -> nlen (c_val c) < two64 ->
  c_hdr c = Some h -> h = encVarNumber (c_type c) ++ encVarNumber (nlen (c_val c)).
Proof.
  intros c h S T L E. unfold comp_shortest in S. rewrite E in S. destruct S as (a & b & Sa & Sb & ->).
  unfold two32, two64 in *.
  f_equal; apply shortest_varnum_unique; auto. change (2 ^ 64) with 18446744073709551616. lia.
Qed.

Lemma key_lt_irr : forall k, ~ key_lt k k.
Proof. intros k [H|[_ [H|[_ H]]]]; [lia|lia|now apply lex_lt_irr in H]. Qed.
Lemma key_lt_trans : forall a b c, key_lt a b -> key_lt b c -> key_lt a c.
Proof.
  intros a b c H G. unfold key_lt in *.
  destruct H as [H|[H1 [H|[H2 H]]]], G as [G|[G1 [G|[G2 G]]]]; try (left; lia);
    right; (split; [lia|]); try (left; lia). right. split; [lia|]. eapply lex_lt_trans; eauto.
Qed.
Lemma key_lt_tri : forall a b, key_lt a b \/ a = b \/ key_lt b a.
Proof.
  intros [t v] [t' v']. unfold key_lt. cbn [fst snd].
  destruct (N.lt_trichotomy t t') as [H|[-> |H]]; [tauto| |tauto].
  destruct (N.lt_trichotomy (nlen v) (nlen v')) as [H|[H|H]]; [tauto| |tauto].
  destruct (lex_lt_tri v v' H) as [G|[-> |G]]; [tauto|auto|]. symmetry in H. tauto.
Qed.

Lemma to_int32_small : forall z, (- 2147483648 <= z < 2147483648)%Z -> to_int32 z = z.
Proof. intros z H. unfold to_int32. rewrite Z.mod_small; lia. Qed.

Lemma comp_compare_lt : forall a b, comp_shortest a -> comp_shortest b -> small_comp a -> small_comp b ->
  c_type a < 2 ^ 31 -> c_type b < 2 ^ 31 -> key_lt (ckey a) (ckey b) ->
  (comp_compare a b < 0 /\ comp_compare b a > 0)%Z.
Proof.
  intros a b Sa Sb La Lb Ta Tb K. unfold small_comp in *. change (2 ^ 31) with 2147483648 in *.
  assert (Slow : forall x y, nlen (c_val x) < 2147483648 -> nlen (c_val y) < 2147483648 ->
     c_type x < 2147483648 -> c_type y < 2147483648 ->
     (let cmpType := to_int32 (Z.of_N (c_type x) - Z.of_N (c_type y)) in
      if negb (cmpType =? 0)%Z then cmpType
      else
        let cmpSize := to_int32 (Z.of_N (nlen (c_val x)) - Z.of_N (nlen (c_val y))) in
        if negb (cmpSize =? 0)%Z then cmpSize
        else memcmp (c_val x) (c_val y)) =
     let cmpType := (Z.of_N (c_type x) - Z.of_N (c_type y))%Z in
      if negb (cmpType =? 0)%Z then cmpType
      else
        let cmpSize := (Z.of_N (nlen (c_val x)) - Z.of_N (nlen (c_val y)))%Z in
        if negb (cmpSize =? 0)%Z then cmpSize
        else memcmp (c_val x) (c_val y)).
  { intros. cbv zeta. rewrite !to_int32_small by lia. reflexivity. }
  assert (SlowK : ((let cmpType := (Z.of_N (c_type a) - Z.of_N (c_type b))%Z in
      if negb (cmpType =? 0)%Z then cmpType
      else
        let cmpSize := (Z.of_N (nlen (c_val a)) - Z.of_N (nlen (c_val b)))%Z in
        if negb (cmpSize =? 0)%Z then cmpSize
        else memcmp (c_val a) (c_val b)) < 0 /\
      (let cmpType := (Z.of_N (c_type b) - Z.of_N (c_type a))%Z in
      if negb (cmpType =? 0)%Z then cmpType
      else
        let cmpSize := (Z.of_N (nlen (c_val b)) - Z.of_N (nlen (c_val a)))%Z in
        if negb (cmpSize =? 0)%Z then cmpSize
        else memcmp (c_val b) (c_val a)) > 0)%Z).
  { cbv zeta. rewrite (memcmp_anti (c_val a) (c_val b)). destruct K as [K|[K1 [K|[K2 K]]]]; cbn [ckey fst snd] in *.
    - destruct (Z.of_N (c_type a) - Z.of_N (c_type b) =? 0)%Z eqn:E1; [lia|].
      destruct (Z.of_N (c_type b) - Z.of_N (c_type a) =? 0)%Z eqn:E2; [lia|]. cbn [negb]. lia.
    - rewrite K1, !Z.sub_diag. cbn [Z.eqb negb].
      destruct (Z.of_N (nlen (c_val a)) - Z.of_N (nlen (c_val b)) =? 0)%Z eqn:E1; [lia|].
      destruct (Z.of_N (nlen (c_val b)) - Z.of_N (nlen (c_val a)) =? 0)%Z eqn:E2; [lia|]. cbn [negb]. lia.
    - rewrite K1, K2, !Z.sub_diag. cbn [Z.eqb negb]. apply memcmp_neg in K. lia. }
  unfold comp_compare. destruct (c_hdr a) as [ha|] eqn:Ha, (c_hdr b) as [hb|] eqn:Hb;
    try (rewrite !Slow by auto; exact SlowK).
  apply comp_shortest_hdr in Ha, Hb; auto; unfold two32, two64; try lia.
  rewrite (memcmp_anti (ha ++ c_val a)).
  assert (G : lex_lt (ha ++ c_val a) (hb ++ c_val b)); [|apply memcmp_neg in G; lia].
  subst ha hb. rewrite <- !app_assoc.
  destruct K as [K|[K1 [K|[K2 K]]]]; cbn [ckey fst snd] in *.
  - apply lex_lt_app, encVarNumber_lex; unfold two64; lia.
  - rewrite K1. apply lex_lt_app_same, lex_lt_app, encVarNumber_lex; unfold two64; lia.
  - rewrite K1, K2. now apply lex_lt_app_same, lex_lt_app_same.
Qed.

Lemma comp_compare_eq : forall a b, comp_shortest a -> comp_shortest b -> small_comp a -> small_comp b ->
  c_type a < 2 ^ 31 -> ckey a = ckey b -> comp_compare a b = 0%Z.
Proof.
  intros a b Sa Sb La Lb Ta [= T V]. unfold small_comp in *. change (2 ^ 31) with 2147483648 in *.
  unfold comp_compare. destruct (c_hdr a) as [ha|] eqn:Ha, (c_hdr b) as [hb|] eqn:Hb;
    try (rewrite T, V, !Z.sub_diag; cbn; apply memcmp_refl).
  apply comp_shortest_hdr in Ha, Hb; auto; unfold two32, two64; try lia.
  rewrite Ha, Hb, T, V. apply memcmp_refl.
Qed.

(* ---- names ---- *)
Lemma names_lt_lexR : forall a b, names_lt a b <-> lexR key_lt a b.
Proof. reflexivity. Qed.

Lemma names_lt_irr : forall a, ~ names_lt a a.
Proof. exact (lexR_irr key_lt key_lt_irr). Qed.
Lemma names_lt_trans : forall a b c, names_lt a b -> names_lt b c -> names_lt a c.
Proof. exact (lexR_trans key_lt key_lt_trans). Qed.
Lemma names_lt_tri : forall a b, names_lt a b \/ a = b \/ names_lt b a.
Proof. exact (lexR_tri key_lt key_lt_tri). Qed.
Lemma names_prefix_between : forall p a b c, names_lt (p ++ a) b \/ b = p ++ a -> names_lt b (p ++ c) \/ b = p ++ c ->
  exists s, b = p ++ s.
Proof. exact (lexR_prefix_between key_lt key_lt_irr key_lt_trans). Qed.

Definition ncmp (a b : list comp) : Z :=
  let c := comps_cmp a b in if negb (c =? 0)%Z then c else (Z.of_N (nlen a) - Z.of_N (nlen b))%Z.

Definition comp_ok (c : comp) : Prop := comp_shortest c /\ small_comp c /\ c_type c < 2 ^ 31.

Lemma comparable_ok : forall n, comparable n <-> nlen (n_comps n) < 2 ^ 31 /\ Forall comp_ok (n_comps n).
Proof.
  intro n. unfold comparable, small_name, comp_ok. rewrite !Forall_forall. split.
  - intros ((L & S) & H & T). split; auto.
  - intros (L & H). splits; auto; intros x Hx; apply H; auto.
Qed.

Lemma ncmp_cons : forall x y a b, ncmp (x :: a) (y :: b) =
  if negb (comp_compare x y =? 0)%Z then comp_compare x y else ncmp a b.
Proof.
  intros x y a b. unfold ncmp. cbn [comps_cmp]. rewrite !nlen_cons. cbv zeta.
  destruct (comp_compare x y =? 0)%Z eqn:E; cbn [negb]; [|now rewrite E].
  replace (Z.of_N (1 + nlen a) - Z.of_N (1 + nlen b))%Z with (Z.of_N (nlen a) - Z.of_N (nlen b))%Z by lia.
  reflexivity.
Qed.

Lemma ncmp_lt : forall a b, Forall comp_ok a -> Forall comp_ok b -> names_lt (map ckey a) (map ckey b) ->
  (ncmp a b < 0 /\ ncmp b a > 0)%Z.
Proof.
  induction a as [|x a IH]; intros [|y b] Fa Fb; rewrite names_lt_lexR; cbn [map].
  - intro H. now apply lexR_nil_r in H.
  - intros _. unfold ncmp. cbn [comps_cmp]. cbv zeta. cbn [Z.eqb negb]. rewrite nlen_cons.
    change (nlen (@nil comp)) with 0. lia.
  - intro H. now apply lexR_nil_r in H.
  - inversion Fa as [|? ? (Sx & Mx & Tx) Fa']; subst. inversion Fb as [|? ? (Sy & My & Ty) Fb']; subst.
    rewrite lexR_cons, !ncmp_cons. intros [H|[E H]].
    + apply comp_compare_lt in H as [H1 H2]; auto.
      destruct (comp_compare x y =? 0)%Z eqn:?; [lia|]. destruct (comp_compare y x =? 0)%Z eqn:?; [lia|].
      cbn [negb]. lia.
    + rewrite (comp_compare_eq x y), (comp_compare_eq y x) by auto. cbn [Z.eqb negb]. apply IH; auto.
Qed.
Lemma ncmp_eq : forall a b, Forall comp_ok a -> Forall comp_ok b -> map ckey a = map ckey b -> ncmp a b = 0%Z.
Proof.
  induction a as [|x a IH]; intros [|y b] Fa Fb; cbn [map]; try discriminate; [reflexivity|].
  intro H. assert (E : ckey x = ckey y /\ map ckey a = map ckey b) by (split; congruence). destruct E as [E E'].
  inversion Fa as [|? ? (Sx & Mx & Tx) Fa']; subst. inversion Fb as [|? ? (Sy & My & Ty) Fb']; subst.
  rewrite ncmp_cons, comp_compare_eq by auto. cbn [Z.eqb negb]. now apply IH.
Qed.

Lemma comps_cmp_trunc : forall a b, comps_cmp (ntake (N.min (nlen a) (nlen b)) a) (ntake (N.min (nlen a) (nlen b)) b)
  = comps_cmp a b.
Proof.
  intros a b. unfold ntake, nlen.
  replace (N.to_nat (N.min (N.of_nat (length a)) (N.of_nat (length b)))) with (Nat.min (length a) (length b)) by lia.
  revert b. induction a as [|x a IH]; intros [|y b]; cbn [length Nat.min firstn comps_cmp]; auto.
  rewrite IH. reflexivity.
Qed.

Lemma nm_compareSub_slices : forall p1 c1 a p2 c2 b,
  p1 <= nm_size a -> p2 <= nm_size b ->
  nm_compareSub p1 c1 a p2 c2 b =
    let x := slice (Z.of_N p1) c1 (n_comps a) in let y := slice (Z.of_N p2) c2 (n_comps b) in
    Ok (let c := comps_cmp x y in if negb (c =? 0)%Z then c else to_int32 (Z.of_N (nlen x) - Z.of_N (nlen y))).
Proof.
  intros p1 c1 a p2 c2 b H1 H2. unfold nm_compareSub, nm_size in *.
  destruct (_ || _) eqn:E; [lia|]. cbv zeta.
  assert (S : forall p c (l : list comp), p <= nlen l ->
     slice (Z.of_N p) c l = ntake (N.min c (nlen l - p)) (ndrop p l) /\
     nlen (slice (Z.of_N p) c l) = N.min c (nlen l - p)).
  { intros p c l L. unfold slice, slice_start.
    destruct (Z.of_N p <? 0)%Z eqn:?; [lia|]. replace (Z.to_nat (Z.of_N p)) with (N.to_nat p) by lia.
    unfold ntake, ndrop, nlen in *. split.
    - destruct (N.le_gt_cases c (N.of_nat (length l) - p)).
      + rewrite N.min_l by lia. reflexivity.
      + rewrite N.min_r by lia. rewrite !firstn_all2; auto; rewrite skipn_length; lia.
    - rewrite firstn_length, skipn_length. lia. }
  destruct (S p1 c1 _ H1) as [Ea La]. destruct (S p2 c2 _ H2) as [Eb Lb].
  set (x := slice (Z.of_N p1) c1 (n_comps a)) in *. set (y := slice (Z.of_N p2) c2 (n_comps b)) in *.
  rewrite <- La, <- Lb.
  assert (Tx : ntake (N.min (nlen x) (nlen y)) (ndrop p1 (n_comps a)) = ntake (N.min (nlen x) (nlen y)) x).
  { rewrite Ea at 3. unfold ntake. rewrite firstn_firstn. f_equal. lia. }
  assert (Ty : ntake (N.min (nlen x) (nlen y)) (ndrop p2 (n_comps b)) = ntake (N.min (nlen x) (nlen y)) y).
  { rewrite Eb at 3. unfold ntake. rewrite firstn_firstn. f_equal. lia. }
  rewrite Tx, Ty, comps_cmp_trunc. reflexivity.
Qed.

Lemma slice_all : forall A (l : list A), nlen l < two64 -> slice 0 npos l = l.
Proof.
  intros A l H. unfold slice, slice_start, npos, two64, nlen in *. cbn [Z.ltb Z.compare Z.to_nat skipn].
  rewrite firstn_all2; auto. lia.
Qed.

Lemma nm_compare_ncmp : forall a b, nlen (n_comps a) < 2 ^ 31 -> nlen (n_comps b) < 2 ^ 31 ->
  nm_compare a b = Ok (ncmp (n_comps a) (n_comps b)).
Proof.
  intros a b La Lb. change (2 ^ 31) with 2147483648 in *. unfold nm_compare.
  rewrite nm_compareSub_slices by (unfold nm_size; lia). cbv zeta. change (Z.of_N 0) with 0%Z.
  rewrite !slice_all by (unfold two64; lia). unfold ncmp. rewrite to_int32_small by lia. reflexivity.
Qed.

Lemma nm_compare_spec : forall a b, comparable a -> comparable b ->
  exists z, nm_compare a b = Ok z /\
    ((z < 0)%Z <-> names_lt (nkey a) (nkey b)) /\
    (z = 0%Z <-> nkey a = nkey b) /\
    ((z > 0)%Z <-> names_lt (nkey b) (nkey a)).
Proof.
  intros a b Ca Cb. apply comparable_ok in Ca as [La Fa], Cb as [Lb Fb].
  exists (ncmp (n_comps a) (n_comps b)). split; [now apply nm_compare_ncmp|].
  pose proof (ncmp_lt _ _ Fa Fb) as L. pose proof (ncmp_lt _ _ Fb Fa) as G. pose proof (ncmp_eq _ _ Fa Fb) as E.
  fold (nkey a) in *. fold (nkey b) in *.
  pose proof (names_lt_irr (nkey a)) as Ia.
  assert (NN : names_lt (nkey a) (nkey b) -> names_lt (nkey b) (nkey a) -> False).
  { intros X Y. apply Ia. eapply names_lt_trans; eauto. }
  assert (NE1 : nkey a = nkey b -> ~ names_lt (nkey a) (nkey b)) by (intros X; now rewrite <- X).
  assert (NE2 : nkey a = nkey b -> ~ names_lt (nkey b) (nkey a)) by (intros X; now rewrite <- X).
  destruct (names_lt_tri (nkey a) (nkey b)) as [H|[H|H]].
  - specialize (L H). splits; split; try tauto; try lia; intro X; exfalso; auto; now apply (NE1 X).
  - specialize (E H). rewrite E. splits; split; try tauto; try lia; intro X; exfalso; now first [apply (NE1 H)|apply (NE2 H)].
  - specialize (G H). splits; split; try tauto; try lia; intro X; exfalso; auto; now apply (NE2 X).
Qed.

(* ---- slices ---- *)
Lemma nm_getSubName_slice : forall i cnt n,
  nm_size n < two64 -> (i < Z.of_N two64)%Z ->
  cnt = npos \/ N.of_nat (slice_start i (length (n_comps n))) + cnt < two64 ->
  n_comps (nm_getSubName i cnt n) = slice i cnt (n_comps n) /\ n_wire (nm_getSubName i cnt n) = None.
Proof.
  intros i cnt n L Li C. split; [|reflexivity]. unfold nm_getSubName, slice, nm_size in *. cbn [n_comps].
  set (st := slice_start i (length (n_comps n))) in *.
  assert (E : (if ((if (i <? 0)%Z then (i + Z.of_N (nlen (n_comps n)))%Z else i) <? 0)%Z then 0
               else Z.to_N (if (i <? 0)%Z then (i + Z.of_N (nlen (n_comps n)))%Z else i)) = N.of_nat st).
  { unfold st, slice_start, nlen. destruct (i <? 0)%Z eqn:?.
    - destruct (i + Z.of_N (N.of_nat (length (n_comps n))) <? 0)%Z eqn:?; lia.
    - destruct (i <? 0)%Z; lia. }
  rewrite E. clear E. unfold ntake, ndrop. rewrite Nat2N.id. unfold nlen in *.
  destruct (cnt =? npos) eqn:Ec.
  - assert (cnt = npos) by lia. subst cnt. unfold npos, two64 in *.
    rewrite !firstn_all2; auto; rewrite skipn_length; lia.
  - destruct C as [C|C]; [lia|]. rewrite N.mod_small by auto.
    destruct (N.le_gt_cases (N.of_nat st + cnt) (N.of_nat (length (n_comps n)))).
    + f_equal. lia.
    + rewrite N.min_l by lia. rewrite !firstn_all2; auto; rewrite skipn_length; lia.
Qed.

Lemma nm_getPrefix_slice : forall k n,
  nm_size n < two64 -> (- Z.of_N (nm_size n) <= k < Z.of_N two64)%Z ->
  n_comps (nm_getPrefix k n) = firstn (slice_start k (length (n_comps n))) (n_comps n).
Proof.
  intros k n L H. unfold nm_getPrefix, nm_size in *. destruct (k <? 0)%Z eqn:K.
  - assert (E : Z.to_N ((Z.of_N (nlen (n_comps n)) + k) mod Z.of_N two64) = N.of_nat (slice_start k (length (n_comps n)))).
    { unfold slice_start. rewrite K. unfold nlen, two64 in *. rewrite Z.mod_small; lia. }
    rewrite E. destruct (nm_getSubName_slice 0 (N.of_nat (slice_start k (length (n_comps n)))) n) as [-> _]; auto.
    + unfold two64; lia.
    + right. unfold slice_start. rewrite K. cbn [Z.ltb Z.compare Z.to_nat]. unfold nlen, two64 in *. lia.
    + unfold slice. cbn [slice_start Z.ltb Z.compare Z.to_nat skipn]. now rewrite Nat2N.id.
  - destruct (nm_getSubName_slice 0 (Z.to_N k) n) as [-> _]; auto.
    + unfold two64; lia.
    + right. cbn [slice_start Z.ltb Z.compare Z.to_nat]. unfold two64 in *. lia.
    + unfold slice. cbn [slice_start Z.ltb Z.compare Z.to_nat skipn]. f_equal. unfold slice_start. rewrite K. lia.
Qed.

(* ---- successors ---- *)
Lemma inc_octets_spec : forall v ov w, inc_octets v = (ov, w) ->
  nlen w = nlen v /\
  (ov = true -> w = repeat x00 (length v) /\ forall u, nlen u = nlen v -> ~ lex_lt v u) /\
  (ov = false -> lex_lt v w /\ forall u, nlen u = nlen v -> lex_lt v u -> u = w \/ lex_lt w u).
Proof.
  induction v as [|b v IH]; intros ov w H; cbn [inc_octets] in H.
  - injection H as <- <-. splits; [reflexivity| |discriminate].
    intros _. split; [reflexivity|]. intros u _ G. now apply diffR_nil_l in G.
  - destruct (inc_octets v) as [ov' w'] eqn:E. destruct (IH _ _ eq_refl) as (L & T & F). clear IH.
    pose proof (bn_lt b) as Bb.
    assert (Z00 : forall u : bytes, nlen u = nlen (repeat x00 (length u)) /\ (u = repeat x00 (length u) \/ lex_lt (repeat x00 (length u)) u)).
    { induction u as [|x u [_ IHu]]; [split; [reflexivity|auto]|]. split; [unfold nlen; now rewrite repeat_length|].
      cbn [length repeat]. destruct (byteR_tri x00 x) as [G|[<- |G]].
      - right. now apply first_lt.
      - destruct IHu as [<- |IHu]; [auto|]. right. now apply cons_lt.
      - unfold byteR in G. change (bn x00) with 0 in G. lia. }
    destruct ov'.
    + destruct (T eq_refl) as [-> M].
      assert (Lr : nlen (repeat x00 (length v)) = nlen v) by (unfold nlen; now rewrite repeat_length).
      destruct (N.eq_dec (bn b) 255) as [B|B].
      * rewrite B in H. cbn in H. injection H as <- <-. splits.
        -- rewrite !nlen_cons. lia.
        -- intros _. split; [reflexivity|]. intros [|x u] Lu; rewrite ?nlen_cons in Lu; [change (nlen (@nil byte)) with 0 in Lu; lia|].
           intros [G|[-> G]]%diffR_cons; [unfold byteR in G; pose proof (bn_lt x); lia|]. apply (M u); [lia|exact G].
        -- discriminate.
      * assert (nv : (bn b + 1) mod 256 = bn b + 1) by (apply N.mod_small; lia). rewrite nv in H.
        destruct (bn b + 1 =? 0) eqn:Z; [lia|]. injection H as <- <-. splits.
        -- rewrite !nlen_cons. lia.
        -- discriminate.
        -- intros _. split; [apply first_lt; rewrite bn_nb, nv; lia|].
           intros [|x u] Lu; rewrite ?nlen_cons in Lu; [change (nlen (@nil byte)) with 0 in Lu; lia|].
           assert (Lu' : length u = length v) by (unfold nlen in Lu; lia).
           intros [G|[-> G]]%diffR_cons; [|destruct (M u); [lia|exact G]]. unfold byteR in G.
           destruct (N.eq_dec (bn x) (bn b + 1)) as [X|X].
           ++ replace (nb (bn b + 1)) with x by (rewrite <- X; apply eq_sym, nb_bn).
              destruct (Z00 u) as [_ [G'|G']]; rewrite Lu' in G'; [left; now f_equal|right; now apply cons_lt].
           ++ right. apply first_lt. rewrite bn_nb, nv. lia.
    + destruct (F eq_refl) as [M1 M2]. injection H as <- <-. splits.
      * rewrite !nlen_cons. lia.
      * discriminate.
      * intros _. split; [now apply cons_lt|]. intros [|x u] Lu; rewrite ?nlen_cons in Lu; [change (nlen (@nil byte)) with 0 in Lu; lia|].
        intros [G|[-> G]]%diffR_cons; [right; now apply first_lt|].
        destruct (M2 u) as [-> |G']; [lia|exact G|now left|right; now apply cons_lt].
Qed.

Lemma zeros_least : forall u : bytes, u = repeat x00 (length u) \/ lex_lt (repeat x00 (length u)) u.
Proof.
  induction u as [|x u IHu]; [auto|].
  cbn [length repeat]. destruct (byteR_tri x00 x) as [G|[<- |G]].
  - right. now apply first_lt.
  - destruct IHu as [<- |IHu]; [auto|]. right. now apply cons_lt.
  - unfold byteR in G. change (bn x00) with 0 in G. lia.
Qed.

Lemma comp_getSuccessor_spec : forall c, valid_key (ckey c) ->
  exists s, comp_getSuccessor c = Ok s /\ valid_key (ckey s) /\ key_lt (ckey c) (ckey s) /\
    forall k, valid_key k -> key_lt (ckey c) k -> k = ckey s \/ key_lt (ckey s) k.
Proof.
  intros c V. unfold comp_getSuccessor, getSuccessorImpl.
  destruct (inc_octets (c_val c)) as [ov w] eqn:E. apply inc_octets_spec in E as (L & T & F).
  pose proof V as (V1 & V2 & V3). cbn [ckey fst snd] in *.
  (* the successor of the same length *)
  assert (Same : ov = false -> exists s, comp_ofBlock (mkBlock (c_type c) w) = Ok s /\ valid_key (ckey s) /\
     key_lt (ckey c) (ckey s) /\ forall k, valid_key k -> key_lt (ckey c) k -> k = ckey s \/ key_lt (ckey s) k).
  { intro Hov. destruct (F Hov) as [M1 M2]. exists (comp_of_elem (mkBlock (c_type c) w)).
    assert (Vs : valid_key (ckey (comp_of_elem (mkBlock (c_type c) w)))).
    { unfold valid_key, ckey. cbn [comp_of_elem mkBlock e_type e_val c_type c_val fst snd]. rewrite L. auto. }
    splits; [now apply ensureValid_iff|exact Vs| |].
    - unfold key_lt, ckey. cbn [comp_of_elem mkBlock e_type e_val c_type c_val fst snd]. auto.
    - intros [t u] _ K. unfold key_lt, ckey in *. cbn [comp_of_elem mkBlock e_type e_val c_type c_val fst snd] in *.
      rewrite L. destruct K as [K|[<- [K|[K1 K]]]]; auto.
      destruct (M2 u) as [-> |G]; auto. right. right. auto. }
  (* all octets overflowed: one octet longer *)
  assert (Longer : ov = true -> c_type c <> 1 -> c_type c <> 2 -> exists s,
     comp_ofBlock (mkBlock (c_type c) (w ++ [x00])) = Ok s /\ valid_key (ckey s) /\
     key_lt (ckey c) (ckey s) /\ forall k, valid_key k -> key_lt (ckey c) k -> k = ckey s \/ key_lt (ckey s) k).
  { intros Hov N1 N2. destruct (T Hov) as [-> M]. exists (comp_of_elem (mkBlock (c_type c) (repeat x00 (length (c_val c)) ++ [x00]))).
    assert (Vs : valid_key (ckey (comp_of_elem (mkBlock (c_type c) (repeat x00 (length (c_val c)) ++ [x00]))))).
    { unfold valid_key, ckey. cbn [comp_of_elem mkBlock e_type e_val c_type c_val fst snd]. splits; auto. lia. }
    assert (Lw : nlen (repeat x00 (length (c_val c)) ++ [x00]) = nlen (c_val c) + 1) by (rewrite nlen_app, L; reflexivity).
    splits; [now apply ensureValid_iff|exact Vs| |].
    - unfold key_lt, ckey. cbn [comp_of_elem mkBlock e_type e_val c_type c_val fst snd]. right. split; auto. left. lia.
    - intros [t u] _ K. unfold key_lt, ckey in *. cbn [comp_of_elem mkBlock e_type e_val c_type c_val fst snd] in *.
      rewrite Lw. destruct K as [K|[<- [K|[K1 K]]]]; auto.
      + destruct (N.eq_dec (nlen u) (nlen (c_val c) + 1)) as [X|X]; [|right; right; split; auto; left; lia].
        assert (Z : repeat x00 (length (c_val c)) ++ [x00] = repeat x00 (length u)).
        { change [x00] with (repeat x00 1). rewrite <- repeat_app. f_equal. unfold nlen in X. lia. }
        rewrite Z. destruct (zeros_least u) as [<- |G]; auto. right. right. split; auto.
      + exfalso. apply (M u); auto. }
  destruct (ctype_of_cases (c_type c)) as [(p & -> & H)|[(-> & H)|[(p & -> & H)|(-> & H)]]].
  - destruct ov; [|now apply Same]. destruct (T eq_refl) as [-> M].
    set (v := getMinValue (c_type c + 1)).
    assert (Hv : (c_type c = 1 /\ v = repeat x00 32) \/ (c_type c = 2 /\ v = [])).
    { unfold v. destruct H as [H|H]; rewrite H; [left|right]; split; reflexivity. }
    assert (Vs : valid_key (ckey (comp_of_elem (mkBlock (c_type c + 1) v)))).
    { unfold valid_key, ckey. cbn [comp_of_elem mkBlock e_type e_val c_type c_val fst snd]. splits; try lia.
      destruct Hv as [[-> ->]|[-> ->]]; [reflexivity|lia]. }
    eexists. splits; [now apply ensureValid_iff|exact Vs| |].
    + unfold key_lt, ckey. cbn [comp_of_elem mkBlock e_type e_val c_type c_val fst snd]. left. lia.
    + intros [t u] (_ & _ & Vk) K. unfold key_lt, ckey in *. cbn [comp_of_elem mkBlock e_type e_val c_type c_val fst snd] in *.
      destruct K as [K|[<- [K|[K1 K]]]].
      * destruct (N.eq_dec t (c_type c + 1)) as [-> |X]; [|right; left; lia].
        destruct Hv as [[Hc ->]|[Hc ->]].
        -- assert (U : nlen u = 32) by (apply Vk; lia).
           assert (U' : length u = 32%nat) by (unfold nlen in U; lia).
           pose proof (zeros_least u) as Z. rewrite U' in Z. destruct Z as [<- |Z]; auto.
           right. right. split; auto.
        -- destruct u as [|x u]; auto. right. right. split; auto. left. rewrite nlen_cons. change (nlen (@nil byte)) with 0. lia.
      * assert (nlen u = 32) by (apply Vk; auto). assert (nlen (c_val c) = 32) by auto. lia.
      * exfalso. apply (M u); auto.
  - destruct ov; [apply Longer; auto; lia|now apply Same].
  - destruct ov; [apply Longer; auto; lia|now apply Same].
  - destruct ov; [apply Longer; auto; tauto|now apply Same].
Qed.

Lemma names_lt_app : forall p a b, names_lt a b -> names_lt (p ++ a) (p ++ b).
Proof. intros p a b H. induction p as [|x p IH]; auto. cbn [app]. apply lexR_cons. auto. Qed.
Lemma names_lt_app_inv : forall p a b, names_lt (p ++ a) (p ++ b) -> names_lt a b.
Proof.
  intros p a b. induction p as [|x p IH]; auto. cbn [app]. rewrite names_lt_lexR, lexR_cons.
  intros [H|[_ H]]; [now apply key_lt_irr in H|auto].
Qed.

(* how a name greater than p ++ [k] relates to it *)
Lemma names_gt_cases : forall p k z, names_lt (p ++ [k]) z ->
  (exists s, z = p ++ k :: s) \/ (exists l s, z = p ++ l :: s /\ key_lt k l) \/
  (exists q x y r s, p = q ++ x :: r /\ z = q ++ y :: s /\ key_lt x y).
Proof.
  intros p k. induction p as [|x p IH]; intros [|y z] H; cbn [app] in *;
    try (now apply lexR_nil_r in H); apply lexR_cons in H as [H|[-> H]].
  - right. left. eauto.
  - left. eauto.
  - right. right. exists [], x, y, p, z. auto.
  - destruct (IH _ H) as [[s ->]|[(l & s & -> & K)|(q & u & v & r & s & -> & -> & K)]].
    + left. eauto.
    + right. left. exists l, s. auto.
    + right. right. exists (y :: q), u, v, r, s. auto.
Qed.

Lemma nm_getSuccessor_spec : forall n, nm_size n < two64 -> Forall valid_key (nkey n) ->
  exists s, nm_getSuccessor n = Ok s /\ Forall valid_key (nkey s) /\ names_lt (nkey n) (nkey s) /\
    (* greater than every name under n, unless n is empty *)
    (nkey n <> [] -> forall x, names_lt (nkey n ++ x) (nkey s)) /\
    (* no greater than any greater name that is not under n *)
    (forall z, Forall valid_key z -> names_lt (nkey n) z -> nkey n = [] \/ ~ (exists x, z = nkey n ++ x) ->
       z = nkey s \/ names_lt (nkey s) z).
Proof.
  intros n L V. unfold nm_getSuccessor. destruct (rev (n_comps n)) as [|last rr] eqn:R.
  - assert (N : nkey n = []).
    { unfold nkey. rewrite <- (rev_involutive (n_comps n)), R. reflexivity. }
    assert (V0 : valid_key (1, repeat x00 32)).
    { unfold valid_key. cbn [fst snd]. splits; try lia. reflexivity. }
    eexists. split; [reflexivity|]. 
    assert (KS : nkey (nm_of [mkComp tImplicitSha256DigestComponent None (repeat x00 32)]) = [(1, repeat x00 32)]) by reflexivity.
    rewrite KS, N. splits; [now repeat constructor|apply lexR_nil_l; discriminate|easy|].
    intros [|[t v] z] Vz Hz _; [now apply lexR_nil_r in Hz|]. inversion Vz as [|? ? (V1 & V2 & V3) Vz']; subst. cbn [fst snd] in *.
    destruct (N.eq_dec t 1) as [-> |X]; [|right; apply lexR_cons; left; left; cbn; lia].
    assert (nlen v = 32) by (apply V3; auto).
    assert (U' : length v = 32%nat) by (unfold nlen in *; lia).
    pose proof (zeros_least v) as Z. rewrite U' in Z. destruct Z as [<- |Z].
    + destruct z as [|y z]; [left; reflexivity|]. right. apply lexR_cons. right. split; [reflexivity|]. apply lexR_nil_l. discriminate.
    + right. apply lexR_cons. left. right. cbn [fst snd]. split; auto.
  - assert (E : n_comps n = rev rr ++ [last]).
    { rewrite <- (rev_involutive (n_comps n)), R. reflexivity. }
    set (p := rev rr) in *.
    assert (K : nkey n = map ckey p ++ [ckey last]) by (unfold nkey; rewrite E, map_app; reflexivity).
    rewrite K in *. apply Forall_app in V as [Vp Vl]. inversion Vl as [|? ? Vlast _]; subst.
    destruct (comp_getSuccessor_spec last Vlast) as (s & -> & Vs & Gt & Least). cbn [bind].
    eexists. split; [reflexivity|].
    assert (P : n_comps (nm_getPrefix (-1) n) = p).
    { rewrite nm_getPrefix_slice; auto.
      - unfold slice_start. cbn [Z.ltb Z.compare]. rewrite E, app_length. cbn [length].
        replace (Z.to_nat (-1 + Z.of_nat (length p + 1))) with (length p) by lia.
        rewrite firstn_app, Nat.sub_diag, firstn_all. cbn [firstn]. now rewrite app_nil_r.
      - unfold nm_size, nlen. rewrite E, app_length. cbn [length]. unfold two64. lia. }
    assert (KS : nkey (nm_append s (nm_getPrefix (-1) n)) = map ckey p ++ [ckey s]).
    { unfold nkey, nm_append. cbn [n_comps]. now rewrite P, map_app. }
    rewrite KS. splits.
    + apply Forall_app. split; auto.
    + apply names_lt_app. apply lexR_cons. auto.
    + intros _ x. rewrite <- app_assoc. apply names_lt_app. cbn [app]. apply lexR_cons. auto.
    + intros z Vz Hz [N|NU]; [now destruct p|].
      destruct (names_gt_cases _ _ _ Hz) as [[x ->]|[(l & x & -> & G)|(q & u & v & r & x & EP & -> & G)]].
      * exfalso. apply NU. exists x. now rewrite <- app_assoc.
      * apply Forall_app in Vz as [_ Vz]. inversion Vz; subst.
        destruct (Least l) as [-> |H]; auto.
        -- destruct x as [|y x]; [left; reflexivity|]. right. apply names_lt_app, lexR_cons. right.
           split; [reflexivity|]. apply lexR_nil_l. discriminate.
        -- right. apply names_lt_app, lexR_cons. auto.
      * right. rewrite EP, <- app_assoc. apply names_lt_app. cbn [app]. apply lexR_cons. auto.
Qed.

Lemma nm_compareSub_compare : forall p1 c1 a p2 c2 b, p1 <= nm_size a -> p2 <= nm_size b ->
  nm_size a < 2 ^ 64 -> nm_size b < 2 ^ 64 -> c1 < 2 ^ 64 -> c2 < 2 ^ 64 ->
  nm_compareSub p1 c1 a p2 c2 b =
  nm_compare (nm_of (slice (Z.of_N p1) c1 (n_comps a))) (nm_of (slice (Z.of_N p2) c2 (n_comps b))).
Proof.
  intros p1 c1 a p2 c2 b H1 H2 La Lb _ _. change (2 ^ 64) with two64 in *. rewrite nm_compareSub_slices by auto.
  unfold nm_compare. rewrite nm_compareSub_slices by (unfold nm_size; lia).
  change (Z.of_N 0) with 0%Z. cbn [n_comps nm_of].
  assert (S : forall p c (l : list comp), nlen l < two64 -> nlen (slice p c l) < two64).
  { intros p c l L. unfold slice, nlen in *. rewrite firstn_length, skipn_length. lia. }
  rewrite !slice_all by (apply S; auto). reflexivity.
Qed.

Lemma nm_at_spec : forall i n,
  (exists j, at_index i (length (n_comps n)) j /\ exists c, nth_error (n_comps n) j = Some c /\ nm_at i n = Ok c) \/
  ((forall j, ~ at_index i (length (n_comps n)) j) /\ nm_at i n = Err ETlv).
Proof.
  intros i n. unfold nm_at. destruct (nm_index i n) as [j|] eqn:E.
  - left. apply nm_index_spec in E. exists j. split; auto.
    destruct (nth_error (n_comps n) j) as [c|] eqn:N; [exists c; auto|].
    apply nth_error_None in N. destruct E. lia.
  - right. split; auto. intros j [L A]. revert E. unfold nm_index, nm_size, nlen.
    destruct (i <? 0)%Z eqn:?; cbv zeta; destruct (_ || _) eqn:?; try discriminate; lia.
Qed.

Lemma numeric_round_trip_ex : forall e d k n, n < 2 ^ 64 -> can_decode d e = true ->
  exists c, fromKind e k n = Ok c /\ isKind d k c = true /\ toKind d k c = Ok n.
Proof.
  intros e d k n L C. destruct (fromKind_ok e k n L) as [c E]. exists c. split; auto.
  eapply numeric_round_trip; eauto.
Qed.

Lemma slice_until_end : forall A i cnt (l : list A), nlen l <= cnt -> slice i cnt l = skipn (slice_start i (length l)) l.
Proof.
  intros A i cnt l H. unfold slice. rewrite firstn_all2; auto. rewrite skipn_length. unfold nlen in H. lia.
Qed.

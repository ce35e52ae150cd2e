(* Proofs about M_Str *)
From Coq Require Import Lia ZifyBool ZifyNat ZifyN.
From Verif Require Import Base BaseLemmas M_Tlv P_Tlv M_Str.

Lemma all_bytes : forall (P : byte -> bool),
  forallb (fun n => P (nb (N.of_nat n))) (seq 0 256) = true -> forall b, P b = true.
Proof.
  intros P H b. rewrite forallb_forall in H. specialize (H (N.to_nat (bn b))).
  rewrite N2Nat.id, nb_bn in H. apply H. apply in_seq. pose proof (bn_lt b). lia.
Qed.

Lemma beqb_refl : forall b, beqb b b = true.
Proof. intro. now apply beqb_eq. Qed.

Lemma fromHex_toHexChar : forall n up, n < 16 -> fromHexChar (toHexChar n up) = Some n.
Proof.
  intros n up H.
  assert (forallb (fun k => match fromHexChar (toHexChar (N.of_nat k) up) with
                            | Some m => m =? N.of_nat k | None => false end) (seq 0 16) = true)
    by (destruct up; vm_compute; reflexivity).
  rewrite forallb_forall in H0. specialize (H0 (N.to_nat n)). rewrite N2Nat.id in H0.
  specialize (H0 ltac:(apply in_seq; lia)). destruct (fromHexChar _); [|discriminate]. f_equal. lia.
Qed.

Lemma fromHexChar_lt : forall c n, fromHexChar c = Some n -> n < 16.
Proof.
  intros c n. unfold fromHexChar, between.
  repeat match goal with |- context [if ?b then _ else _] => destruct b eqn:? end;
    intro H; try discriminate; injection H as <-; lia.
Qed.

Lemma hi_lo : forall c, nb (bn c / 16 * 16 + bn c mod 16) = c.
Proof. intro c. replace (bn c / 16 * 16 + bn c mod 16) with (bn c) by lia. apply nb_bn. Qed.

Lemma unescape_escape_app : forall s r, unescape (escape s ++ r) = s ++ unescape r.
Proof.
  intros s r. induction s as [|c s IH]; [reflexivity|].
  cbn [escape]. destruct (isUnreserved c) eqn:U.
  - cbn [app unescape]. destruct (escape s ++ r) as [|h [|l t]] eqn:E.
    + cbn in *. now rewrite <- IH.
    + now rewrite <- IH.
    + destruct (beqb c cPercent) eqn:P.
      { apply beqb_eq in P. subst c. discriminate U. }
      now rewrite <- IH.
  - cbn [app unescape]. rewrite beqb_refl. pose proof (bn_lt c).
    rewrite !fromHex_toHexChar by lia. now rewrite IH, hi_lo.
Qed.

Lemma unescape_escape : forall s, unescape (escape s) = s.
Proof.
  intro s. pose proof (unescape_escape_app s []) as H. rewrite !app_nil_r in H.
  cbn in H. now rewrite ?app_nil_r in H.
Qed.

Lemma fromHex_toHex : forall up s, fromHex (toHex up s) = Ok s.
Proof.
  intros up s. induction s as [|c s IH]; [reflexivity|]. cbn [toHex fromHex].
  pose proof (bn_lt c). rewrite !fromHex_toHexChar by lia. rewrite IH. cbn [bind]. now rewrite hi_lo.
Qed.

Lemma nlen_toHex : forall up s, nlen (toHex up s) = 2 * nlen s.
Proof. intros up s. induction s; [reflexivity|]. cbn [toHex]. rewrite !nlen_cons, IHs. lia. Qed.

Lemma fromHex_err : forall s e, fromHex s = Err e -> e = EInvalidArg.
Proof.
  intro s. remember (length s) as k. revert s Heqk.
  induction k as [k IH] using (well_founded_induction Wf_nat.lt_wf). intros s -> e H.
  destruct s as [|h [|l rest]]; cbn [fromHex] in H; [discriminate|congruence|].
  destruct (fromHexChar h); [|congruence]. destruct (fromHexChar l); [|congruence].
  destruct (fromHex rest) eqn:E; cbn in H; [discriminate|]. injection H as <-.
  eapply (IH (length rest)); [|reflexivity|exact E]. cbn. lia.
Qed.

(* characters of an escaped string *)
Definition uriChar (c : byte) : bool := isUnreserved c || beqb c cPercent.

Lemma escape_chars : forall s, forallb uriChar (escape s) = true.
Proof.
  assert (H : forall b, forallb uriChar [toHexChar (bn b / 16) true; toHexChar (bn b mod 16) true] = true).
  { intro b. apply (all_bytes (fun b => forallb uriChar [toHexChar (bn b / 16) true; toHexChar (bn b mod 16) true])).
    vm_compute. reflexivity. }
  induction s as [|c s IH]; [reflexivity|]. cbn [escape].
  destruct (isUnreserved c) eqn:U; cbn [forallb].
  - unfold uriChar at 1. now rewrite U, IH.
  - specialize (H c). cbn [forallb] in H. apply andb_prop in H as [H1 H2]. apply andb_prop in H2 as [H2 _].
    now rewrite H1, H2, IH.
Qed.

Lemma split_at_none : forall c s, forallb (fun x => negb (beqb x c)) s = true -> split_at c s = None.
Proof.
  intros c s. induction s as [|x s IH]; cbn; [reflexivity|]. intro H. apply andb_prop in H as [H1 H2].
  destruct (beqb x c); [discriminate|]. now rewrite IH.
Qed.

Lemma split_at_app : forall c a b, forallb (fun x => negb (beqb x c)) a = true ->
  split_at c (a ++ c :: b) = Some (a, b).
Proof.
  intros c a b. induction a as [|x a IH]; cbn.
  - intros _. now rewrite beqb_refl.
  - intro H. apply andb_prop in H as [H1 H2]. destruct (beqb x c); [discriminate|]. now rewrite IH.
Qed.

Lemma split_at_inv : forall c s a b, split_at c s = Some (a, b) ->
  s = a ++ c :: b /\ forallb (fun x => negb (beqb x c)) a = true.
Proof.
  intros c s. induction s as [|x s IH]; cbn; [discriminate|]. intros a b.
  destruct (beqb x c) eqn:E.
  - intros [= <- <-]. apply beqb_eq in E. now subst.
  - destruct (split_at c s) as [[a' b']|]; [|discriminate]. intros [= <- <-].
    destruct (IH a' b' eq_refl) as [-> F]. cbn. now rewrite E, F.
Qed.

Lemma split_at_none_inv : forall c s, split_at c s = None -> forallb (fun x => negb (beqb x c)) s = true.
Proof.
  intros c s. induction s as [|x s IH]; cbn; [reflexivity|].
  destruct (beqb x c); [discriminate|]. destruct (split_at c s) as [[]|]; [discriminate|]. auto.
Qed.

Lemma forallb_impl : forall A (P Q : A -> bool) l, (forall x, P x = true -> Q x = true) ->
  forallb P l = true -> forallb Q l = true.
Proof. intros A P Q l H. induction l; cbn; auto. rewrite !andb_true_iff. firstorder. Qed.

(* ---- decimal ---- *)
Lemma dec_digits_all : forall f n acc, forallb isDigit acc = true -> forallb isDigit (dec_digits f n acc) = true.
Proof.
  induction f as [|f IH]; intros n acc H; cbn [dec_digits]; auto.
  assert (D : isDigit (nb (48 + n mod 10)) = true).
  { unfold isDigit, between. rewrite bn_nb; lia. }
  destruct (n <? 10); [cbn; now rewrite D|]. apply IH. cbn. now rewrite D.
Qed.

Lemma to_string_digits : forall n, forallb isDigit (to_string n) = true.
Proof. intro. now apply dec_digits_all. Qed.

Lemma read_digits_acc : forall s r acc, forallb isDigit s = true ->
  match r with c :: _ => isDigit c = false | [] => True end ->
  fst (read_digits (s ++ r) acc) = acc * 10 ^ nlen s + fst (read_digits (s ++ r) 0) /\
  fst (read_digits (s ++ r) 0) < 10 ^ nlen s.
Proof.
  induction s as [|c s IH]; intros r acc D R.
  - cbn [app]. assert (E : forall a, read_digits r a = (a, false)).
    { intro a. destruct r as [|c r]; [reflexivity|]. cbn. now rewrite R. }
    rewrite !E. cbn [fst]. change (10 ^ nlen (@nil byte)) with 1. lia.
  - cbn [forallb] in D. apply andb_prop in D as [Dc Ds]. cbn [app read_digits]. rewrite Dc. cbn [fst].
    destruct (IH r (acc * 10 + (bn c - 48)) Ds R) as [E1 L].
    destruct (IH r (0 * 10 + (bn c - 48)) Ds R) as [E2 _].
    rewrite E1, E2. rewrite nlen_cons, N.add_1_l, N.pow_succ_r' by lia.
    unfold isDigit, between in Dc. nia.
Qed.

Lemma read_digits_step : forall c s acc, isDigit c = true ->
  read_digits (c :: s) acc = (fst (read_digits s (acc * 10 + (bn c - 48))), true).
Proof. intros c s acc H. cbn [read_digits]. now rewrite H. Qed.

Lemma dec_digits_read : forall f n acc r, n < 2 ^ N.of_nat f -> 
  forallb isDigit acc = true -> match r with c :: _ => isDigit c = false | [] => True end ->
  fst (read_digits (dec_digits f n acc ++ r) 0) = n * 10 ^ nlen acc + fst (read_digits (acc ++ r) 0).
Proof.
  induction f as [|f IH]; intros n acc r L D R.
  - cbn [dec_digits]. change (2 ^ N.of_nat 0) with 1 in L. lia.
  - cbn [dec_digits].
    assert (Hd : bn (nb (48 + n mod 10)) = 48 + n mod 10) by (rewrite bn_nb; lia).
    assert (Dd : isDigit (nb (48 + n mod 10)) = true) by (unfold isDigit, between; lia).
    assert (S1 : fst (read_digits ((nb (48 + n mod 10) :: acc) ++ r) 0) =
                 (n mod 10) * 10 ^ nlen acc + fst (read_digits (acc ++ r) 0)).
    { cbn [app]. rewrite read_digits_step by auto. cbn [fst].
      destruct (read_digits_acc acc r (0 * 10 + (bn (nb (48 + n mod 10)) - 48)) D R) as [E _].
      rewrite E, Hd. f_equal. f_equal. lia. }
    destruct (n <? 10) eqn:C.
    + rewrite S1. rewrite N.mod_small by lia. reflexivity.
    + rewrite IH.
      * rewrite S1, nlen_cons, N.add_1_l, N.pow_succ_r' by lia.
        rewrite (N.div_mod' n 10) at 3. lia.
      * rewrite Nat2N.inj_succ, N.pow_succ_r' in L by lia. lia.
      * cbn [forallb]. now rewrite Dd, D.
      * auto.
Qed.

Lemma size_nat_bound : forall n, n < 2 ^ N.of_nat (S (N.size_nat n)).
Proof.
  intro n. rewrite Nat2N.inj_succ, N.pow_succ_r' by lia.
  assert (n <= 2 * 2 ^ N.of_nat (N.size_nat n) - 1 /\ 2 ^ N.of_nat (N.size_nat n) > 0); [|lia].
  pose proof (N.pow_nonzero 2 (N.of_nat (N.size_nat n)) ltac:(lia)).
  split; [|lia]. destruct n as [|p]; [lia|]. pose proof (N.size_gt (N.pos p)) as G.
  assert (N.of_nat (N.size_nat (N.pos p)) = N.size (N.pos p)) as ->; [|lia].
  cbn [N.size N.size_nat]. clear. induction p; cbn [Pos.size_nat Pos.size]; lia.
Qed.

Lemma to_string_cons : forall n, exists c s, to_string n = c :: s /\ isDigit c = true.
Proof.
  intro n. pose proof (to_string_digits n) as D. destruct (to_string n) as [|c s] eqn:E.
  - exfalso. unfold to_string in E. revert E. generalize (N.size_nat n). intros k.
    assert (G : forall f n acc, acc <> [] -> dec_digits f n acc <> []).
    { induction f; intros m acc NE; cbn [dec_digits]; auto. destruct (m <? 10); [discriminate|].
      apply IHf. discriminate. }
    cbn [dec_digits]. destruct (n <? 10); [discriminate|]. apply G. discriminate.
  - exists c, s. split; auto. cbn in D. now apply andb_prop in D as [D _].
Qed.

Lemma strtoull_to_string : forall n r, n < two64 ->
  match r with c :: _ => isDigit c = false | [] => True end ->
  strtoull (to_string n ++ r) = (n, true, false).
Proof.
  intros n r L R. destruct (to_string_cons n) as (c & s & E & Dc).
  unfold strtoull. cbv zeta.
  assert (SK : skip_spaces (to_string n ++ r) = to_string n ++ r).
  { rewrite E. cbn [app skip_spaces]. unfold isDigit, between in Dc. unfold isSpace, between.
    destruct (_ || beqb c x20) eqn:B; [|reflexivity]. exfalso.
    unfold beqb in B. change (bn x20) with 32 in B. lia. }
  rewrite SK. clear SK.
  assert (B1 : beqb c x2d = false /\ beqb c x2b = false).
  { unfold isDigit, between in Dc. unfold beqb. change (bn x2d) with 45. change (bn x2b) with 43. lia. }
  destruct B1 as [B1 B2].
  pose proof (dec_digits_read (S (N.size_nat n)) n [] r (size_nat_bound n) eq_refl R) as V.
  fold (to_string n) in V. cbn [app] in V.
  assert (Z0 : fst (read_digits r 0) = 0).
  { destruct r as [|x r]; [reflexivity|]. cbn. now rewrite R. }
  rewrite Z0 in V. change (10 ^ nlen (@nil byte)) with 1 in V.
  assert (A : snd (read_digits (to_string n ++ r) 0) = true).
  { rewrite E. cbn [app]. now rewrite read_digits_step. }
  rewrite E in *. cbn [app] in *. rewrite B1, B2.
  destruct (read_digits (c :: s ++ r) 0) as [v any]. cbn [fst snd] in *. subst any v.
  cbn [negb]. destruct (two64 <=? n * 1 + 0) eqn:C; [lia|]. repeat f_equal. lia.
Qed.

Lemma stoull_to_string : forall n, n < two64 -> stoull (to_string n) = Ok n.
Proof.
  intros n L. unfold stoull. pose proof (strtoull_to_string n [] L I) as H. rewrite app_nil_r in H.
  now rewrite H.
Qed.

Lemma to_string_inj : forall a b, a < two64 -> b < two64 -> to_string a = to_string b -> a = b.
Proof.
  intros a b La Lb E. pose proof (stoull_to_string a La) as H. rewrite E, stoull_to_string in H by auto.
  congruence.
Qed.

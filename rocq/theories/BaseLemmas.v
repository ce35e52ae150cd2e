From Coq Require Import Lia ZifyBool ZifyNat ZifyN Strings.Byte.
From Verif Require Import Base.
Ltac Zify.zify_post_hook ::= Z.div_mod_to_equations.
Arguments N.add : simpl never.
Arguments N.mul : simpl never.
Arguments N.div : simpl never.
Arguments N.modulo : simpl never.
Arguments N.pow : simpl never.
Arguments N.sub : simpl never.
Arguments N.ltb : simpl never.
Arguments N.leb : simpl never.
Arguments N.eqb : simpl never.

Lemma bn_lt : forall b, bn b < 256.
Proof. intro b. unfold bn. pose proof (Byte.to_N_bounded b). lia. Qed.

Lemma nb_bn : forall b, nb (bn b) = b.
Proof.
  intro b. unfold nb, bn. pose proof (Byte.to_N_bounded b).
  rewrite N.mod_small by lia. now rewrite Byte.of_to_N.
Qed.

Lemma bn_nb : forall n, bn (nb n) = n mod 256.
Proof.
  intro n. unfold nb, bn.
  assert (H : n mod 256 < 256) by (apply N.mod_lt; lia).
  destruct (Byte.of_N (n mod 256)) eqn:E.
  - now apply Byte.to_of_N.
  - apply Byte.of_N_None_iff in E. lia.
Qed.

Lemma bn_inj : forall a b, bn a = bn b -> a = b.
Proof. intros a b H. rewrite <- (nb_bn a), <- (nb_bn b). now rewrite H. Qed.

Lemma beqb_eq : forall a b, beqb a b = true <-> a = b.
Proof.
  intros a b. unfold beqb. rewrite N.eqb_eq. split; [apply bn_inj | now intros ->].
Qed.

Lemma beqb_refl : forall a, beqb a a = true.
Proof. intro a. now apply beqb_eq. Qed.

Lemma bytes_eqb_eq : forall a b, bytes_eqb a b = true <-> a = b.
Proof.
  induction a as [|x a IH]; intros [|y b]; cbn; split; try congruence; try easy.
  - rewrite andb_true_iff, beqb_eq, IH. now intros [-> ->].
  - intros [= -> ->]. rewrite andb_true_iff, beqb_eq, IH. auto.
Qed.

Lemma bytes_eqb_refl : forall a, bytes_eqb a a = true.
Proof. intro a. now apply bytes_eqb_eq. Qed.

Lemma bytes_eqb_neq : forall a b, bytes_eqb a b = false <-> a <> b.
Proof.
  intros a b. rewrite <- bytes_eqb_eq. destruct (bytes_eqb a b); split; congruence.
Qed.

Lemma byte_eq_dec : forall a b : byte, {a = b} + {a <> b}.
Proof.
  intros a b. destruct (beqb a b) eqn:E.
  - left. now apply beqb_eq.
  - right. rewrite <- beqb_eq. congruence.
Qed.

Lemma bytes_eq_dec : forall a b : bytes, {a = b} + {a <> b}.
Proof. apply list_eq_dec, byte_eq_dec. Qed.

(* ---- lengths ---- *)
Section Len.
Context {A : Type}.
Implicit Types l : list A.

Lemma nlen_nil : nlen (@nil A) = 0.
Proof. reflexivity. Qed.

Lemma nlen_cons : forall x l, nlen (x :: l) = 1 + nlen l.
Proof. intros. unfold nlen. cbn [length]. lia. Qed.

Lemma nlen_app : forall l l', nlen (l ++ l') = nlen l + nlen l'.
Proof. intros. unfold nlen. rewrite app_length. lia. Qed.

Lemma nlen_0 : forall l, nlen l = 0 <-> l = [].
Proof. intros [|x l]; split; auto; rewrite nlen_cons; try lia. discriminate. Qed.

Lemma nlen_nat : forall l, N.to_nat (nlen l) = length l.
Proof. intros. unfold nlen. lia. Qed.

Lemma ntake_app : forall l l', ntake (nlen l) (l ++ l') = l.
Proof.
  intros. unfold ntake. rewrite nlen_nat, firstn_app, Nat.sub_diag, firstn_all.
  cbn. now rewrite app_nil_r.
Qed.

Lemma ndrop_app : forall l l', ndrop (nlen l) (l ++ l') = l'.
Proof.
  intros. unfold ndrop. rewrite nlen_nat, skipn_app, Nat.sub_diag, skipn_all. reflexivity.
Qed.

Lemma ntake_ndrop : forall n l, ntake n l ++ ndrop n l = l.
Proof. intros. apply firstn_skipn. Qed.

Lemma nlen_ntake : forall n l, n <= nlen l -> nlen (ntake n l) = n.
Proof. intros n l H. unfold nlen, ntake in *. rewrite firstn_length. lia. Qed.

Lemma nlen_ntake_min : forall n l, nlen (ntake n l) = N.min n (nlen l).
Proof. intros n l. unfold nlen, ntake in *. rewrite firstn_length. lia. Qed.

Lemma nlen_ndrop : forall n l, nlen (ndrop n l) = nlen l - n.
Proof. intros n l. unfold nlen, ndrop in *. rewrite skipn_length. lia. Qed.

Lemma ntake_all : forall n l, nlen l <= n -> ntake n l = l.
Proof. intros n l H. unfold ntake. apply firstn_all2. unfold nlen in H. lia. Qed.

Lemma ndrop_all : forall n l, nlen l <= n -> ndrop n l = [].
Proof. intros n l H. unfold ndrop. apply skipn_all2. unfold nlen in H. lia. Qed.

Lemma ntake_0 : forall l, ntake 0 l = [].
Proof. reflexivity. Qed.
Lemma ndrop_0 : forall l, ndrop 0 l = l.
Proof. reflexivity. Qed.

End Len.

Lemma nlen_map : forall {A B} (f : A -> B) l, nlen (List.map f l) = nlen l.
Proof. intros. unfold nlen. now rewrite map_length. Qed.

Lemma nlen_rev : forall {A} (l : list A), nlen (rev l) = nlen l.
Proof. intros. unfold nlen. now rewrite rev_length. Qed.

(* ---- result monad ---- *)
Lemma bind_ok : forall {A B} (m : res A) (k : A -> res B) b,
  bind m k = Ok b -> exists a, m = Ok a /\ k a = Ok b.
Proof. intros A B [a|e] k b H; cbn in H; [eauto | discriminate]. Qed.

Lemma bind_err : forall {A B} (m : res A) (k : A -> res B) e,
  bind m k = Err e -> m = Err e \/ exists a, m = Ok a /\ k a = Err e.
Proof. intros A B [a|e'] k e H; cbn in H; [eauto | left; congruence]. Qed.

Ltac inv_bind H :=
  let a := fresh "a" in let E := fresh "E" in
  apply bind_ok in H; destruct H as [a [E H]].

Lemma map_res_ok_length : forall {A B} (f : A -> res B) l ys,
  map_res f l = Ok ys -> length ys = length l.
Proof.
  induction l as [|x l IH]; intros ys H; cbn in H.
  - now injection H as <-.
  - inv_bind H. inv_bind H. injection H as <-. cbn. f_equal. auto.
Qed.

Lemma map_res_id_ok : forall {A B} (f : A -> res B) (g : A -> B) l,
  (forall x, In x l -> f x = Ok (g x)) -> map_res f l = Ok (List.map g l).
Proof.
  induction l as [|x l IH]; intros H; cbn; auto.
  rewrite H by (now left). cbn. rewrite IH by (intros; apply H; now right). reflexivity.
Qed.

(* split visible conjunctions only *)
Ltac splits := repeat match goal with |- _ /\ _ => split end.

(* RegexTopMatcher::fromName *)
From Coq Require Import List Lia ZifyBool ZifyNat ZifyN Arith.
From Verif Require Import Base BaseLemmas M_Tlv M_Str M_Name S_Name P_Str P_NameUri M_Regex S_Regex P_Regex P_Regex2 P_Regex3 P_Regex4.
Import ListNotations.
Open Scope N_scope.

(* ---- the characters of URIs ---- *)
Definition plainc (x : byte) : bool := isUnreserved x || beqb x cPercent || beqb x cEqual.
Lemma uri_plain : forall c, uriChar c = true -> plainc c = true.
Proof.
  intros c H. assert (G : (implb (uriChar c) (plainc c)) = true) by (apply (all_bytes (fun c => implb (uriChar c) (plainc c))); vm_compute; reflexivity). rewrite H in G. exact G.
Qed.
Lemma digit_plain : forall c, isDigit c = true -> plainc c = true.
Proof.
  intros c H. assert (G : (implb (isDigit c) (plainc c)) = true) by (apply (all_bytes (fun c => implb (isDigit c) (plainc c))); vm_compute; reflexivity). rewrite H in G. exact G.
Qed.
Lemma hex_plain : forall v, forallb plainc (toHex false v) = true.
Proof.
  induction v as [|c v IH]; [reflexivity|]. cbn [toHex forallb].
  assert (G : plainc (toHexChar (bn c / 16) false) && plainc (toHexChar (bn c mod 16) false) = true).
  { apply (all_bytes (fun c => plainc (toHexChar (bn c / 16) false) && plainc (toHexChar (bn c mod 16) false))). vm_compute. reflexivity. }
  apply andb_prop in G as [-> ->]. exact IH.
Qed.
Lemma base_plain : forall c, forallb plainc (writeUriBase c) = true.
Proof.
  intro c. unfold writeUriBase. rewrite forallb_app. apply andb_true_intro. split.
  - eapply forallb_impl; [|apply to_string_digits]. intros x H. now apply digit_plain.
  - cbn [forallb]. apply andb_true_intro. split; [reflexivity|]. eapply forallb_impl; [|apply writeValue_chars]. intros x H. now apply uri_plain.
Qed.
Lemma toUri_plain : forall f c, forallb plainc (comp_toUri f c) = true.
Proof.
  intros [] c; cbn [comp_toUri]; [apply base_plain|]. unfold writeUriAlt. destruct (ctype_of_cases (c_type c)) as [(p & E & H)|[(E & H)|[(p & E & H)|(E & H)]]]; rewrite E.
  - assert (P : forallb plainc p = true). { destruct H as [H|H]; rewrite H in E; cbn in E; injection E as <-; reflexivity. } rewrite forallb_app, P. cbn [forallb]. apply hex_plain.
  - eapply forallb_impl; [|apply writeValue_chars]. intros x Hx. now apply uri_plain.
  - destruct (toNumber c) as [n|e]; [|apply base_plain]. assert (P : forallb plainc p = true). { destruct H as [H|[H|[H|[H|H]]]]; rewrite H in E; cbn in E; injection E as <-; reflexivity. } rewrite forallb_app, P. cbn [forallb andb]. change (plainc cEqual) with true. cbn [andb]. eapply forallb_impl; [|apply to_string_digits]. intros x Hx. now apply digit_plain.
  - apply base_plain.
Qed.
Lemma special_meta : forall c, plainc c = true -> special c = existsb (fun x => beqb x c) meta.
Proof.
  intros c H. assert (G : (implb (plainc c) (Bool.eqb (special c) (existsb (fun x => beqb x c) meta))) = true) by (apply (all_bytes (fun c => implb (plainc c) (Bool.eqb (special c) (existsb (fun x => beqb x c) meta)))); vm_compute; reflexivity). rewrite H in G. now apply Bool.eqb_prop.
Qed.
Lemma convert_literal : forall s, forallb plainc s = true -> literal (convertSpecial s) s.
Proof.
  induction s as [|c s IH]; intro H; [constructor|]. cbn [forallb] in H. apply andb_prop in H as [Hc Hs]. cbn [convertSpecial flat_map]. fold (convertSpecial s). pose proof (special_meta c Hc) as M. destruct (special c); cbn [app].
  - apply L_escaped; auto. symmetry in M. apply existsb_exists in M. destruct M as (x & I & E). apply beqb_eq in E. now subst x.
  - apply L_plain; auto. intro I. assert (X : existsb (fun x => beqb x c) meta = true) by (apply existsb_exists; exists c; split; [exact I|apply beqb_refl]). congruence.
Qed.
Lemma convert_text : forall s, forallb plainc s = true -> comp_text (convertSpecial s).
Proof.
  intros s H. assert (A : forall c, In c (convertSpecial s) -> c <> cLt /\ c <> cGt /\ c <> x00).
  { intros c I. unfold convertSpecial in I. apply in_flat_map in I. destruct I as (x & Ix & Ic). rewrite forallb_forall in H. specialize (H x Ix). assert (Px : x <> cLt /\ x <> cGt /\ x <> x00) by (splits; intros ->; discriminate H). destruct (special x); cbn in Ic; intuition (subst; auto; discriminate). }
  assert (Z : forall c s, ~ In c s -> count c s = O). { clear. intros c s. induction s as [|x s IH]; intro H; [reflexivity|]. rewrite count_other; [apply IH; intro I; apply H; now right|]. intros ->. apply H. now left. }
  split; [|intro I; apply A in I; tauto]. split.
  - rewrite !Z; auto; intro I; apply A in I; tauto.
  - intros p q E. rewrite (Z cGt p); [lia|]. intro I. destruct (A cGt) as (_ & B & _); [rewrite E; apply in_app_iff; auto|]. now apply B.
Qed.
Lemma convert_ne : forall s, s <> [] -> convertSpecial s <> [].
Proof. intros [|c s] H; [contradiction|]. cbn [convertSpecial flat_map]. destruct (special c); discriminate. Qed.

Section F.
Variable re_count : bytes -> option N.
Variable re_match : bytes -> bytes -> option (list bytes).
Variable uf : uri_format.
Variable stack : nat.
Hypothesis Hl : literals re_count re_match.
Hypothesis Hd : dot_star re_count re_match uf.
Notation acc := (acc re_match).

Definition name_pats (n : list comp) : list pat := map (fun c => PRep (PSet true [convertSpecial (comp_toUri uf c)]) 1 (Some 1)) n.
Definition name_text (n : list comp) : bytes := concat (map (fun c => angled (convertSpecial (comp_toUri uf c))) n).
Lemma name_spelled : forall n, spelled (name_pats n) (name_text n).
Proof using.
  induction n as [|c n IH]; [constructor|]. unfold name_pats, name_text. cbn [map concat]. change (angled ?e ++ ?r) with (angled e ++ [] ++ r). apply P_set; [|constructor|exact IH]. apply S_one. apply convert_text, toUri_plain.
Qed.
Lemma name_valid : forall n, Forall (valid re_count) (flat_map exprs (name_pats n)).
Proof using Hl.
  induction n as [|c n IH]; [constructor|]. cbn. constructor; [|exact IH]. unfold valid. apply (Hl _ (comp_toUri uf c)); [apply convert_ne, toUri_chars|]. apply convert_literal, toUri_plain.
Qed.
Lemma name_lang : forall n w, langs acc uf (name_pats n) w <-> Forall2 (fun c d => comp_toUri uf c = comp_toUri uf d) n w.
Proof using Hl.
  unfold langs. induction n as [|c n IH]; intro w; cbn [name_pats map in_sequence].
  - split; [intros ->; constructor|intro H; inversion H; reflexivity].
  - assert (One : forall u, lang acc uf (PRep (PSet true [convertSpecial (comp_toUri uf c)]) 1 (Some 1)) u <-> exists d, u = [d] /\ comp_toUri uf c = comp_toUri uf d).
    { intro u. destruct (Hl (convertSpecial (comp_toUri uf c)) (comp_toUri uf c)) as [_ M]; [apply convert_ne, toUri_chars|apply convert_literal, toUri_plain|]. cbn [lang at_most]. split.
      - intros (ws & -> & F & A & B). destruct ws as [|x [|y ws]]; [cbn in A; lia| |rewrite !nlen_cons in B; lia]. inversion F as [|? ? (d & -> & e & [<-|[]] & [E|E]) _]; subst; [exfalso; revert E; apply convert_ne, toUri_chars|]. exists d. split; [reflexivity|]. symmetry. apply M, E.
      - intros (d & -> & E). exists [[d]]. splits; try (cbn; lia); [reflexivity|]. constructor; [|constructor]. exists d. split; [reflexivity|]. exists (convertSpecial (comp_toUri uf c)). split; [now left|]. right. apply M. now symmetry. }
    split.
    + intros (u & v & -> & A & B). apply One in A. destruct A as (d & -> & E). cbn [app]. constructor; [exact E|]. now apply IH.
    + intro H. inversion H as [|? d ? w' E F]; subst. exists [d], w'. splits; [reflexivity|apply One; eauto|]. now apply IH.
Qed.
Lemma fromName_new : forall n anchor, fromName re_count uf n anchor = rt_new re_count (top_text true (name_text n) anchor) [].
Proof using. reflexivity. Qed.
Lemma name_solid : forall n, Forall (solid acc uf) (name_pats n).
Proof using. induction n as [|c n IH]; constructor; [|exact IH]. cbn. split; [exact I|]. intros (d & E & _). discriminate. Qed.
Lemma fromName_exact : forall n anchor, exists t, fromName re_count uf n anchor = Ok t /\ forall t' m, used re_match uf stack t t' -> (length m < stack)%nat -> nlen m < two64 - 1 ->
  exists b t'', rt_match re_match uf stack m t' = Ok (b, t'') /\ (b = true <-> exists v x, m = v ++ x /\ (anchor = true -> x = []) /\ Forall2 (fun c d => comp_toUri uf c = comp_toUri uf d) n v).
Proof using Hl Hd.
  intros n anchor. destruct Hd as [Hd1 Hd2]. rewrite fromName_new. destruct (new_ok re_count true anchor (name_pats n) (name_text n) []) as (t & E); [apply name_spelled|discriminate|apply name_valid|unfold valid; congruence|]. exists t. split; [exact E|]. intros t' m U Ls Lm.
  destruct (new_inv re_count _ _ _ _ _ _ (name_spelled n) E) as (C & _). apply (compiled_same _ _ _ _ _ _ (used_same re_match uf stack _ _ U)) in C. destruct (match_exact re_count re_match uf stack _ _ _ _ m C (name_solid n) Ls Lm Hd2) as (b & t'' & M & S0). exists b, t''. split; [exact M|]. rewrite S0. split.
  - intros (u & v & x & -> & Eu & Ex & L). rewrite (Eu eq_refl). exists v, x. splits; auto. now apply name_lang.
  - intros (v & x & -> & Ex & F). exists [], v, x. splits; auto. now apply name_lang.
Qed.
End F.
(* distinct components have distinct URIs *)
Lemma uri_same : forall uf c d, valid_key (ckey c) -> valid_key (ckey d) -> (uf = ALTERNATE -> alt_ok (ckey c) /\ alt_ok (ckey d)) -> (comp_toUri uf c = comp_toUri uf d <-> ckey c = ckey d).
Proof.
  intros uf c d Vc Vd A. split.
  - intro E. destruct uf; cbn [comp_toUri] in E.
    + pose proof (canonical_parse c Vc) as Pc. pose proof (canonical_parse d Vd) as Pd. rewrite E, Pd in Pc. injection Pc as E1 E2. unfold ckey. congruence.
    + destruct (A eq_refl) as [Ac Ad]. destruct (alternate_parse c Vc Ac) as (c' & Pc & Kc). destruct (alternate_parse d Vd Ad) as (d' & Pd & Kd). rewrite E, Pd in Pc. injection Pc as ->. congruence.
  - intro E. unfold ckey in E. injection E as E1 E2. destruct uf; cbn [comp_toUri]; unfold writeUriAlt, writeUriBase, toNumber, isNumber; now rewrite E1, E2.
Qed.

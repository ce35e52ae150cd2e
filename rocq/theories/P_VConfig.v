From Coq Require Import List Lia ZifyBool ZifyNat ZifyN String.
From Verif Require Import Base BaseLemmas M_Tlv M_Str M_Name S_Name M_Packet M_Ims P_Ims M_Signer M_IntPolicy M_Regex S_Regex P_Regex P_Regex2 P_Regex3 P_Regex4 M_Pib M_Validator M_VConfig S_VConfig.
Import ListNotations.
Open Scope list_scope.
Open Scope N_scope.

(* ---- keywords ---- *)
Lemma upper_low : forall a b, upper a = upper b <-> low a = low b.
Proof. intros a b. unfold upper, low. destruct (97 <=? bn a) eqn:A1, (bn a <=? 122) eqn:A2, (97 <=? bn b) eqn:B1, (bn b <=? 122) eqn:B2, (65 <=? bn a) eqn:A3, (bn a <=? 90) eqn:A4, (65 <=? bn b) eqn:B3, (bn b <=? 90) eqn:B4; cbn [andb]; lia. Qed.
Lemma iequals_iff : forall a b, iequals a b = true <-> map low a = map low b.
Proof.
  induction a as [|x a IH]; intros [|y b]; cbn [iequals map]; try (split; [reflexivity|reflexivity]); try (split; discriminate). rewrite andb_true_iff, IH, N.eqb_eq, upper_low. split; [intros [-> ->]; reflexivity|intro H; injection H; auto].
Qed.
Lemma reads_iff : forall s w, iequals s (str w) = true <-> reads s w.
Proof. intros. apply iequals_iff. Qed.
Lemma reads_no : forall s w, iequals s (str w) = false <-> ~ reads s w.
Proof. intros s w. rewrite <- reads_iff. destruct (iequals s (str w)); split; congruence. Qed.
(* two keywords that differ are not both read *)
Lemma reads_other : forall s v w, reads s v -> map low (str v) <> map low (str w) -> iequals s (str w) = false.
Proof. intros s v w R Ne. apply reads_no. intro R2. unfold reads in *. congruence. Qed.
Ltac other R := rewrite (reads_other _ _ _ R) by (vm_compute; discriminate).

Lemma expect_iff : forall w l v l', expect (str w) l = Ok (v, l') <-> exists p, l = p :: l' /\ prop p w /\ v = value p.
Proof.
  intros w l v l'. unfold expect. destruct l as [|[k c] l]; [split; [discriminate|intros (p & E & _); discriminate]|]. destruct (iequals k (str w)) eqn:E.
  - apply reads_iff in E. split; [intro H; injection H as <- <-; exists (k, c); auto|intros (p & X & _ & ->); injection X as <- <-; reflexivity].
  - split; [discriminate|]. intros (p & X & R & _). injection X as <- <-. apply reads_no in E. contradiction.
Qed.
Lemma expect_ok : forall w p l, prop p w -> expect (str w) (p :: l) = Ok (value p, l).
Proof. intros w p l P. apply expect_iff. eauto. Qed.
Lemma done_iff : forall l u, done l = Ok u -> l = [].
Proof. intros [|p l] u H; [reflexivity|discriminate]. Qed.

Section C.
Variable re_count : bytes -> option N.
Variable re_match : bytes -> bytes -> option (list bytes).
Variable uf : uri_format.
Variable stack : nat.
Notation rt_new := (rt_new re_count).
Notation compiled := (compiled re_count).

(* ---- compiled objects ---- *)
Definition is_expr (t : rtop) (e : expr) : Prop := compiled t (x_caret e) (x_dollar e) (x_pats e).
Definition says_f (f : filter) (s : sfilter) : Prop :=
  match f, s with
  | FRel n r, SFName m r' => keys n = m /\ r = r'
  | FRegex t, SFExpr e => is_expr t e
  | _, _ => False
  end.
Definition hier_p : list pat := [PGrp [PRep (PSet true [[]]) 0 None]].
Definition hier_k : list pat := [PGrp [PRep (PSet true [[]]) 0 None]; PRep (PSet true [str "KEY"]) 1 (Some 1); PRep (PSet true [[]]) 1 (Some 3)].
Definition ref1 : bytes := str "\1".
Definition says_k (k : ckind) (s : scheck) : Prop :=
  match k, s with
  | CAny, SCAny => True
  | CRel n r, SCName m r' => keys n = m /\ r = r'
  | CRegex t, SCExpr e => is_expr t e
  | CHyper tp tk r, SCHyper ep p ek k r' => is_expr tp ep /\ t_expand tp = p /\ is_expr tk ek /\ t_expand tk = k /\ r = r'
  | CHyper tp tk r, SCHier => is_expr tp (mkEx true hier_p true) /\ t_expand tp = ref1 /\ is_expr tk (mkEx true hier_k true) /\ t_expand tk = ref1 /\ r = IS_PREFIX_OF
  | _, _ => False
  end.
Definition says_c (c : checker) (s : N * scheck) : Prop := ck_sig c = fst s /\ says_k (ck_kind c) (snd s).
Definition says_r (r : rule) (s : srule) : Prop := rl_data r = sr_data s /\ Forall2 says_f (rl_filters r) (sr_filters s) /\ Forall2 says_c (rl_checkers r) (sr_checkers s).

(* ---- creation, both directions ---- *)
Hypothesis Dot : valid re_count (str ".*").
Lemma new_expr : forall s x t, rt_new s x = Ok t -> exists e, expr_text re_count s e /\ is_expr t e /\ t_expand t = x.
Proof using re_count. clear re_match uf stack.
  intros s x t H. destruct (new_parse re_count s x t H) as (caret & dollar & b & ps & -> & Sp). destruct (new_inv re_count _ _ _ _ _ _ Sp H) as (C & E & V). exists (mkEx caret ps dollar). splits; auto. split; [intro Z; rewrite Z in H; discriminate|]. exists b. auto.
Qed.
Lemma expr_new : forall s x e, expr_text re_count s e -> exists t, rt_new s x = Ok t /\ is_expr t e /\ t_expand t = x.
Proof using Dot. clear re_match uf stack.
  intros s x [caret ps dollar] (Ne & b & -> & Sp & V). cbn [x_caret x_pats x_dollar] in *. destruct (new_ok re_count caret dollar ps b x Sp Ne V Dot) as (t & E). exists t. split; [exact E|]. destruct (new_inv re_count _ _ _ _ _ _ Sp E) as (C & Ex & _). split; auto.
Qed.
Lemma rel_iff : forall s r, getNameRelation s = Ok r <-> rel_text s r.
Proof using. clear.
  intros s r. unfold getNameRelation. split.
  - destruct (iequals s (str "equal")) eqn:A; [intro H; injection H as <-; constructor; now apply reads_iff|]. destruct (iequals s (str "is-prefix-of")) eqn:B; [intro H; injection H as <-; constructor; now apply reads_iff|]. destruct (iequals s (str "is-strict-prefix-of")) eqn:C; [intro H; injection H as <-; constructor; now apply reads_iff|discriminate].
  - intros [s' R|s' R|s' R]; [|other R|other R; other R]; apply reads_iff in R; now rewrite R.
Qed.
Lemma uri_ok : forall s n, match nm_fromUri s with Err ETlv => Err ERuntime | x => x end = Ok n <-> nm_fromUri s = Ok n.
Proof using. clear. intros s n. destruct (nm_fromUri s) as [m|e]; [tauto|]. destruct e; split; congruence. Qed.
Ltac pr := match goal with H : iequals ?k (str ?w) = true |- _ => apply reads_iff in H end.
Lemma fl_sound : forall c f, fl_create re_count c = Ok f -> exists s, filter_text re_count (kids c) s /\ says_f f s.
Proof using re_count. clear re_match uf stack.
  intros c f H. unfold fl_create in H. destruct (kids c) as [|[k1 v1] l]; [discriminate|]. destruct (iequals k1 (str "type")) eqn:K1; cbn [negb] in H; [|discriminate]. destruct (iequals (dat v1) (str "name")) eqn:D1; cbn [negb] in H; [|discriminate]. destruct l as [|[k2 v2] l2]; [discriminate|]. destruct (iequals k2 (str "name")) eqn:K2.
  - destruct (match nm_fromUri (dat v2) with Err ETlv => Err ERuntime | x => x end) as [n|] eqn:Nm; cbn [bind] in H; [|discriminate]. apply uri_ok in Nm. destruct l2 as [|[k3 v3] l3]; [discriminate|]. destruct (iequals k3 (str "relation")) eqn:K3; cbn [negb] in H; [|discriminate]. destruct (getNameRelation (dat v3)) as [r|] eqn:R; cbn [bind] in H; [|discriminate]. destruct l3; [|discriminate]. injection H as <-.
    repeat pr. apply rel_iff in R. exists (SFName (nkey n) r). split; [now apply FT_name|split; reflexivity].
  - destruct (iequals k2 (str "regex")) eqn:K3; [|discriminate]. destruct l2; [|discriminate]. destruct (rt_new (dat v2) []) as [t|] eqn:T; cbn [bind] in H; [|discriminate]. injection H as <-. destruct (new_expr _ _ _ T) as (e & Te & Se & _). repeat pr. exists (SFExpr e). split; [now apply FT_expr|exact Se].
Qed.
Lemma fl_complete : forall c s, filter_text re_count (kids c) s -> exists f, fl_create re_count c = Ok f /\ says_f f s.
Proof using Dot. clear re_match uf stack.
  intros c s H. unfold fl_create. inversion H as [t n r m rel A B D E F G Ek Es|t x e A B D E Ek Es]; subst; destruct t as [k1 v1]; unfold prop, value in *; cbn [fst snd] in *.
  - destruct n as [k2 v2], r as [k3 v3]; cbn [fst snd] in *. apply reads_iff in A, B, D, F. rewrite A, B, D, E, F. cbn [negb bind]. apply rel_iff in G. rewrite G. cbn [bind]. eexists. split; [reflexivity|]. split; reflexivity.
  - destruct x as [k2 v2]; cbn [fst snd] in *. apply reads_iff in A, B. rewrite A, B. cbn [negb]. other D. apply reads_iff in D. rewrite D. destruct (expr_new _ [] _ E) as (t & -> & Te & _). cbn [bind]. eexists. split; [reflexivity|exact Te].
Qed.
Lemma sig_iff : forall l s l', sigTypeProp l = Ok (s, l') <-> sig_text l s l'.
Proof using. clear.
  intros l s l'. unfold sigTypeProp. split.
  - intro H. destruct l as [|[k v] l]; [injection H as <- <-; constructor; intros (p & x & E & _); discriminate|]. destruct (iequals k (str "sig-type")) eqn:K.
    + unfold parseSigType in H. apply reads_iff in K. destruct (iequals (dat v) (str "rsa-sha256")) eqn:A; [injection H as <- <-; apply reads_iff in A; now constructor|]. destruct (iequals (dat v) (str "ecdsa-sha256")) eqn:B; [injection H as <- <-; apply reads_iff in B; now apply ST_ecdsa|]. destruct (iequals (dat v) (str "sha256")) eqn:C; [injection H as <- <-; apply reads_iff in C; now apply ST_digest|discriminate].
    + injection H as <- <-. apply reads_no in K. constructor. intros (p & x & E & R). injection E as <- <-. contradiction.
  - intros [l0 B|p l0 A B|p l0 A B|p l0 A B].
    + destruct l0 as [|[k v] l0]; [reflexivity|]. destruct (iequals k (str "sig-type")) eqn:K; [|reflexivity]. exfalso. apply B. apply reads_iff in K. exists (k, v), l0. auto.
    + destruct p as [k v]. unfold prop, value in *. cbn [fst snd] in *. apply reads_iff in A. rewrite A. unfold parseSigType. apply reads_iff in B. now rewrite B.
    + destruct p as [k v]. unfold prop, value in *. cbn [fst snd] in *. apply reads_iff in A. rewrite A. unfold parseSigType. other B. apply reads_iff in B. now rewrite B.
    + destruct p as [k v]. unfold prop, value in *. cbn [fst snd] in *. apply reads_iff in A. rewrite A. unfold parseSigType. other B. other B. apply reads_iff in B. now rewrite B.
Qed.
Ltac ex H := match type of H with bind (expect (str ?w) ?l) _ = _ =>
  let v := fresh "v" in let l' := fresh "l" in let E := fresh "E" in destruct (expect (str w) l) as [[v l']|] eqn:E; cbn [bind fst snd] in H; [|discriminate]; apply expect_iff in E end.
Ltac dn H := match type of H with bind (done ?l) _ = _ => let D := fresh "D" in destruct (done l) eqn:D; cbn [bind] in H; [|discriminate]; apply done_iff in D end.
Lemma hyper_sound : forall c k, hyper_create re_count c = Ok k -> exists kr ke hr pr pe ek ep rel, kids c = [kr; ke; hr; pr; pe] /\ prop kr "k-regex" /\ prop ke "k-expand" /\ prop hr "h-relation" /\ prop pr "p-regex" /\ prop pe "p-expand" /\
  expr_text re_count (value kr) ek /\ expr_text re_count (value pr) ep /\ rel_text (value hr) rel /\ says_k k (SCHyper ep (value pe) ek (value ke) rel).
Proof using re_count. clear re_match uf stack.
  intros c k H. unfold hyper_create in H. ex H. ex H. ex H. ex H. ex H. dn H. destruct (getNameRelation v1) as [rel|] eqn:R; cbn [bind] in H; [|discriminate]. destruct (rt_new v2 v3) as [tp|] eqn:Tp; cbn [bind] in H; [|discriminate]. destruct (rt_new v v0) as [tk|] eqn:Tk; cbn [bind] in H; [|discriminate]. injection H as <-.
  destruct E as (kr & E & P1 & ->), E0 as (ke & -> & P2 & ->), E1 as (hr & -> & P3 & ->), E2 as (pr & -> & P4 & ->), E3 as (pe & -> & P5 & ->). subst. apply rel_iff in R. destruct (new_expr _ _ _ Tp) as (ep & A1 & A2 & A3), (new_expr _ _ _ Tk) as (ek & B1 & B2 & B3).
  exists kr, ke, hr, pr, pe, ek, ep, rel. splits; auto. unfold says_k. splits; auto.
Qed.
Lemma kl_sound : forall c k, kl_create re_count c = Ok k -> exists s, locator_text re_count (kids c) s /\ says_k k s.
Proof using re_count. clear re_match uf stack.
  intros c k H. unfold kl_create in H. ex H. destruct E as (t & E & P1 & ->). rewrite E. destruct (iequals (value t) (str "name")) eqn:D1; cbn [negb] in H; [|discriminate]. apply reads_iff in D1. destruct l as [|[k2 v2] l]; [discriminate|]. destruct (iequals k2 (str "name")) eqn:K2.
  - destruct (match nm_fromUri (dat v2) with Err ETlv => Err ERuntime | x => x end) as [n|] eqn:Nm; cbn [bind] in H; [|discriminate]. apply uri_ok in Nm. ex H. destruct E0 as (r & -> & P2 & ->). destruct (getNameRelation (value r)) as [rel|] eqn:R; cbn [bind] in H; [|discriminate]. dn H. subst. injection H as <-. apply reads_iff in K2. apply rel_iff in R. exists (SCName (nkey n) rel). split; [now apply LT_name|split; reflexivity].
  - destruct (iequals k2 (str "regex")) eqn:K3.
    + dn H. subst. destruct (rt_new (dat v2) []) as [tt|] eqn:T; cbn [bind] in H; [|discriminate]. injection H as <-. destruct (new_expr _ _ _ T) as (e & Te & Se & _). apply reads_iff in K3. exists (SCExpr e). split; [now apply LT_expr|exact Se].
    + destruct (iequals k2 (str "hyper-relation")) eqn:K4; [|discriminate]. apply reads_iff in K4. destruct (hyper_sound _ _ H) as (kr & ke & hr & pr & pe & ek & ep & rel & Ek & Q1 & Q2 & Q3 & Q4 & Q5 & X1 & X2 & X3 & X4). eexists. split; [eapply LT_hyper; eauto|exact X4].
Qed.
Lemma kl_complete : forall c s, locator_text re_count (kids c) s -> exists k, kl_create re_count c = Ok k /\ says_k k s.
Proof using Dot. clear re_match uf stack.
  intros c s H. unfold kl_create. inversion H as [t n r m rel A B D E F G Ek Es|t x e A B D E Ek Es|t h ig kr ke hr pr pe ek ep rel A B D Ek P1 P2 P3 P4 P5 X1 X2 X3 El Es]; subst; rewrite (expect_ok _ _ _ A); cbn [bind fst snd]; apply reads_iff in B; rewrite B; cbn [negb].
  - destruct n as [k2 v2]; unfold prop, value in D, E; cbn [fst snd] in D, E. apply reads_iff in D. rewrite D, E. cbn [bind]. rewrite (expect_ok _ _ _ F). cbn [bind fst snd]. apply rel_iff in G. rewrite G. cbn [bind done]. eexists. split; [reflexivity|split; reflexivity].
  - destruct x as [k2 v2]; unfold prop, value in D, E; cbn [fst snd] in D, E. other D. apply reads_iff in D. rewrite D. cbn [done bind]. destruct (expr_new _ [] _ E) as (t' & -> & Te & _). cbn [bind]. eexists. split; [reflexivity|exact Te].
  - destruct h as [k2 v2]; unfold prop in D; cbn [fst snd] in D, Ek. other D. other D. apply reads_iff in D. rewrite D. unfold hyper_create. rewrite Ek. rewrite (expect_ok _ _ _ P1). cbn [bind fst snd]. rewrite (expect_ok _ _ _ P2). cbn [bind fst snd]. rewrite (expect_ok _ _ _ P3). cbn [bind fst snd]. rewrite (expect_ok _ _ _ P4). cbn [bind fst snd]. rewrite (expect_ok _ _ _ P5). cbn [bind fst snd done]. apply rel_iff in X3. rewrite X3. cbn [bind].
    destruct (expr_new _ (value pe) _ X2) as (tp & -> & Tp & Ep). destruct (expr_new _ (value ke) _ X1) as (tk & -> & Tk & Ekk). cbn [bind]. eexists. split; [reflexivity|]. unfold says_k. splits; auto.
Qed.
(* the hierarchical checker *)
Hypothesis Blank : valid re_count [].
Hypothesis KeyOk : valid re_count (str "KEY").
Lemma comp_blank : comp_text [].
Proof using. split; [split; [reflexivity|]|intros []]. intros p q E. symmetry in E. apply app_eq_nil in E. destruct E as [-> ->]. reflexivity. Qed.
Lemma beqb_sym : forall a b, beqb a b = beqb b a.
Proof using. clear. intros a b. unfold beqb. apply N.eqb_sym. Qed.
Lemma no_chars : forall l r s, forallb (fun c => negb (beqb c l) && negb (beqb c r)) s = true -> balanced l r s.
Proof using. clear.
  intros l r s H. assert (Z : forall p, (exists q, s = p ++ q) -> count l p = 0%nat /\ count r p = 0%nat).
  { intros p (q & ->). rewrite forallb_app in H. apply andb_prop in H. destruct H as [H _]. induction p as [|c p IH]; [auto|]. cbn [forallb] in H. apply andb_prop in H. destruct H as [H1 H2]. destruct (IH H2) as [I1 I2]. apply andb_prop in H1. destruct H1 as [A B]. apply negb_true_iff in A, B. unfold count in *. cbn [List.filter]. rewrite (beqb_sym l), (beqb_sym r), A, B. auto. }
  split; [destruct (Z s (ex_intro _ [] (eq_sym (app_nil_r s)))) as [-> ->]; reflexivity|]. intros p q E. destruct (Z p (ex_intro _ q E)) as [-> ->]. lia.
Qed.
Lemma quant13 : quant (str "{1,3}") 1 (Some 3).
Proof using.
  assert (A : is_decimal [x31]) by (split; [discriminate|split; [repeat constructor; cbn; lia|reflexivity]]). assert (B : is_decimal [x33]) by (split; [discriminate|split; [repeat constructor; cbn; lia|reflexivity]]).
  exact (Q_range [x31] [x33] A B ltac:(vm_compute; discriminate)).
Qed.
Lemma any_spelled : spelled [PRep (PSet true [[]]) 0 None] (str "<>*").
Proof using. apply (P_set (angled []) true [[]] [cStar] 0 None [] []); [constructor; apply comp_blank|constructor|constructor]. Qed.
Lemma hier_p_spelled : spelled hier_p (str "(<>*)").
Proof using. apply (P_group _ (str "<>*") [] []); [apply any_spelled|now apply no_chars|constructor]. Qed.
Lemma hier_k_spelled : spelled hier_k (str "(<>*)<KEY><>{1,3}").
Proof using.
  apply (P_group _ (str "<>*") (tl hier_k) (str "<KEY><>{1,3}")); [apply any_spelled|now apply no_chars|]. apply (P_set (angled (str "KEY")) true [str "KEY"] [] 1 (Some 1) _ (str "<>{1,3}")); [constructor; split; [now apply no_chars|intros [X|[X|[X|[]]]]; discriminate]|constructor|].
  apply (P_set (angled []) true [[]] (str "{1,3}") 1 (Some 3) [] []); [constructor; apply comp_blank|apply quant13|constructor].
Qed.
Lemma hier_new : exists tp tk, rt_new (str "^(<>*)$") ref1 = Ok tp /\ rt_new (str "^(<>*)<KEY><>{1,3}$") ref1 = Ok tk /\ says_k (CHyper tp tk IS_PREFIX_OF) SCHier.
Proof using Dot Blank KeyOk.
  assert (Vp : expr_text re_count (str "^(<>*)$") (mkEx true hier_p true)) by (split; [discriminate|]; exists (str "(<>*)"); splits; [reflexivity|apply hier_p_spelled|repeat constructor; exact Blank]).
  assert (Vk : expr_text re_count (str "^(<>*)<KEY><>{1,3}$") (mkEx true hier_k true)) by (split; [discriminate|]; exists (str "(<>*)<KEY><>{1,3}"); splits; [reflexivity|apply hier_k_spelled|repeat constructor; assumption]).
  destruct (expr_new _ ref1 _ Vp) as (tp & Ep & Sp & Xp). destruct (expr_new _ ref1 _ Vk) as (tk & Ek & Sk & Xk). exists tp, tk. splits; auto. unfold says_k. splits; auto.
Qed.
Lemma ck_sound : forall c k, ck_create re_count c = Ok k -> exists s, checker_text re_count (kids c) s /\ says_c k s.
Proof using Dot Blank KeyOk. clear re_match uf stack.
  intros c k H. unfold ck_create in H. ex H. destruct E as (t & E & P1 & ->). rewrite E. destruct (iequals (value t) (str "customized")) eqn:D1.
  - apply reads_iff in D1. destruct (sigTypeProp l) as [[s l1]|] eqn:Sg; cbn [bind fst snd] in H; [|discriminate]. apply sig_iff in Sg. assert (Any : ~ begins l1 "key-locator" -> (if s =? 0 then Ok (mkCk 0 CAny) else Err ERuntime) = Ok k -> exists s0, checker_text re_count (t :: l) s0 /\ says_c k s0).
    { intros Nb A. destruct (N.eqb_spec s 0) as [->|]; [|discriminate]. injection A as <-. exists (0, SCAny). split; [eapply CT_digest; eauto|split; [reflexivity|exact I]]. }
    destruct l1 as [|[k2 v2] l2]; [apply Any; [intros (p & x & X & _); discriminate|exact H]|]. destruct (iequals k2 (str "key-locator")) eqn:K2.
    + apply reads_iff in K2. destruct (kl_create re_count v2) as [x|] eqn:Kl; cbn [bind] in H; [|discriminate]. dn H. subst. injection H as <-. destruct (kl_sound _ _ Kl) as (sc & T1 & T2). exists (s, sc). split; [eapply CT_locator; eauto|split; [reflexivity|exact T2]].
    + apply reads_no in K2. apply Any; [|exact H]. intros (p & x & X & R). injection X as <- <-. contradiction.
  - destruct (iequals (value t) (str "hierarchical")) eqn:D2; [|discriminate]. apply reads_iff in D2. destruct (sigTypeProp l) as [[s l1]|] eqn:Sg; cbn [bind fst snd] in H; [|discriminate]. apply sig_iff in Sg. dn H. subst. destruct hier_new as (tp & tk & Ep & Ek & S0). change (str "\1") with ref1 in H. rewrite Ep, Ek in H. cbn [bind] in H. injection H as <-. exists (s, SCHier). split; [now apply CT_hier|split; [reflexivity|exact S0]].
Qed.
Lemma ck_complete : forall c s, checker_text re_count (kids c) s -> exists k, ck_create re_count c = Ok k /\ says_c k s.
Proof using Dot Blank KeyOk. clear re_match uf stack.
  intros c s H. unfold ck_create. inversion H as [t l sg k sc A B D E F Ek Es|t l ig A B D E Ek Es|t l sg A B D Ek Es]; subst; rewrite (expect_ok _ _ _ A); cbn [bind fst snd].
  - apply reads_iff in B. rewrite B. apply sig_iff in D. rewrite D. cbn [bind fst snd]. destruct k as [k v]. unfold prop in E; cbn [fst snd] in *. apply reads_iff in E. rewrite E. destruct (kl_complete _ _ F) as (x & -> & Sx). cbn [bind done]. eexists. split; [reflexivity|]. split; [reflexivity|exact Sx].
  - apply reads_iff in B. rewrite B. apply sig_iff in D. rewrite D. cbn [bind fst snd]. destruct ig as [|[k v] ig].
    + eexists. split; [reflexivity|]. split; [reflexivity|exact I].
    + destruct (iequals k (str "key-locator")) eqn:K; [exfalso; apply E; apply reads_iff in K; exists (k, v), ig; auto|]. eexists. split; [reflexivity|]. split; [reflexivity|exact I].
  - other B. apply reads_iff in B. rewrite B. apply sig_iff in D. rewrite D. cbn [bind fst snd done]. destruct hier_new as (tp & tk & Ep & Ekk & S0). change (str "\1") with ref1. rewrite Ep, Ekk. cbn [bind]. eexists. split; [reflexivity|]. split; [reflexivity|exact S0].
Qed.
(* ---- rules ---- *)
Lemma checks_sound : forall l x, rl_checks re_count l = Ok x -> exists s, Forall2 (fun p c => prop p "checker" /\ checker_text re_count (kids (snd p)) c) l s /\ Forall2 says_c x s.
Proof using Dot Blank KeyOk. clear re_match uf stack.
  induction l as [|[k v] l IH]; intros x H; cbn [rl_checks] in H; [injection H as <-; exists []; auto|]. destruct (iequals k (str "checker")) eqn:K; [|discriminate]. apply reads_iff in K. destruct (ck_create re_count v) as [c|] eqn:C; cbn [bind] in H; [|discriminate]. destruct (rl_checks re_count l) as [y|] eqn:L; cbn [bind] in H; [|discriminate]. injection H as <-. destruct (IH _ eq_refl) as (s & A & B), (ck_sound _ _ C) as (s0 & A0 & B0). exists (s0 :: s). split; constructor; auto.
Qed.
Lemma checks_complete : forall l s, Forall2 (fun p c => prop p "checker" /\ checker_text re_count (kids (snd p)) c) l s -> exists x, rl_checks re_count l = Ok x /\ Forall2 says_c x s.
Proof using Dot Blank KeyOk. clear re_match uf stack.
  induction 1 as [|[k v] c l s [P T] F (x & E & Sx)]; [exists []; auto|]. unfold prop in P. cbn [fst snd rl_checks] in *. apply reads_iff in P. rewrite P. destruct (ck_complete _ _ T) as (y & -> & Sy). rewrite E. cbn [bind]. exists (y :: x). auto.
Qed.
Lemma filts_sound : forall l x, rl_filts re_count l = Ok x -> exists fs s, l = fs ++ snd x /\ Forall2 (fun p f => prop p "filter" /\ filter_text re_count (kids (snd p)) f) fs s /\ Forall2 says_f (fst x) s.
Proof using re_count. clear re_match uf stack.
  induction l as [|[k v] l IH]; intros x H; cbn [rl_filts] in H; [injection H as <-; exists [], []; splits; [reflexivity|constructor|constructor]|]. destruct (iequals k (str "filter")) eqn:K.
  - apply reads_iff in K. destruct (fl_create re_count v) as [c|] eqn:C; cbn [bind] in H; [|discriminate]. destruct (rl_filts re_count l) as [y|] eqn:L; cbn [bind] in H; [|discriminate]. injection H as <-. destruct (IH _ eq_refl) as (fs & s & E & A & B), (fl_sound _ _ C) as (s0 & A0 & B0). exists ((k, v) :: fs), (s0 :: s). cbn [fst snd app]. splits; [now rewrite <- E|constructor; auto|constructor; auto].
  - destruct (iequals k (str "checker")); [|discriminate]. injection H as <-. exists [], []. splits; [reflexivity|constructor|constructor].
Qed.
Lemma filts_complete : forall fs s, Forall2 (fun p f => prop p "filter" /\ filter_text re_count (kids (snd p)) f) fs s -> forall cs, (cs = [] \/ begins cs "checker") -> exists x, rl_filts re_count (fs ++ cs) = Ok (x, cs) /\ Forall2 says_f x s.
Proof using Dot. clear re_match uf stack.
  induction 1 as [|[k v] f fs s [P T] F IH]; intros cs B; cbn [app].
  - exists []. split; [|constructor]. destruct B as [->|([k v] & l & -> & P)]; [reflexivity|]. unfold prop in P. cbn [fst rl_filts] in *. other P. apply reads_iff in P. now rewrite P.
  - unfold prop in P. cbn [fst snd rl_filts] in *. apply reads_iff in P. rewrite P. destruct (fl_complete _ _ T) as (y & -> & Sy). destruct (IH cs B) as (x & -> & Sx). cbn [bind fst snd]. exists (y :: x). auto.
Qed.
Lemma for_iff : forall s d, (if iequals s (str "data") then Ok true else if iequals s (str "interest") then Ok false else Err ERuntime) = Ok d <-> for_text s d.
Proof using. clear.
  intros s d. unfold for_text. split.
  - destruct (iequals s (str "data")) eqn:A; [intro H; injection H as <-; now apply reads_iff|]. destruct (iequals s (str "interest")) eqn:B; [intro H; injection H as <-; now apply reads_iff|discriminate].
  - destruct d; intro R; [|other R]; apply reads_iff in R; now rewrite R.
Qed.
Lemma rl_sound : forall c r, rl_create re_count c = Ok r -> exists s, rule_text re_count (kids c) s /\ says_r r s.
Proof using Dot Blank KeyOk. clear re_match uf stack.
  intros c r H. unfold rl_create in H. ex H. ex H. destruct E as (i & E & P1 & ->), E0 as (u & -> & P2 & ->). destruct (if iequals (value u) (str "data") then _ else _) as [d|] eqn:D; cbn [bind] in H; [|discriminate]. apply for_iff in D. destruct (rl_filts re_count l0) as [[fl rest]|] eqn:F; cbn [bind fst snd] in H; [|discriminate]. destruct (rl_checks re_count rest) as [cl|] eqn:C; cbn [bind] in H; [|discriminate]. destruct (filts_sound _ _ F) as (fs & s & -> & A1 & A2), (checks_sound _ _ C) as (cs & B1 & B2). cbn [fst snd] in *.
  destruct cl as [|c0 cl]; [discriminate|]. injection H as <-. exists (mkSR d s cs). split; [|split; [reflexivity|split; auto]]. exists i, u, fs, rest. cbn [sr_data sr_filters sr_checkers]. splits; auto. intros ->. inversion B1; subst. inversion B2.
Qed.
Lemma rl_complete : forall c s, rule_text re_count (kids c) s -> exists r, rl_create re_count c = Ok r /\ says_r r s.
Proof using Dot Blank KeyOk. clear re_match uf stack.
  intros c s (i & u & fs & cs & E & P1 & P2 & D & Ff & Fc & Ne). unfold rl_create. rewrite E, (expect_ok _ _ _ P1). cbn [bind fst snd]. rewrite (expect_ok _ _ _ P2). cbn [bind fst snd]. apply for_iff in D. rewrite D. cbn [bind].
  destruct (filts_complete _ _ Ff cs) as (x & -> & Sx); [right; destruct cs as [|p cs]; [contradiction|]; exists p, cs; split; auto; inversion Fc; subst; tauto|]. cbn [bind fst snd]. destruct (checks_complete _ _ Fc) as (y & -> & Sy). cbn [bind]. destruct y as [|y0 y]; [inversion Sy as [Ea Eb|]; rewrite <- Eb in Fc; inversion Fc; subst; contradiction|]. eexists. split; [reflexivity|]. split; [reflexivity|split; auto].
Qed.
(* ---- trust anchors ---- *)
Lemma some1 : forall {A} (a b : A), Some a = Some b -> a = b.
Proof using. clear. intros A a b H. now injection H. Qed.
Lemma cast_nat : forall s n, (0 <= n)%Z -> (cast_i32 s = Some n <-> number_text s n).
Proof using. clear.
  intros s n Hn. unfold cast_i32. split.
  - cbv zeta. intro H. assert (P : exists sign d, s = sign ++ d /\ (match s with c :: s' => if beqb c x2d || beqb c cPlus then s' else s | [] => [] end) = d /\ (sign = [] /\ (match s with c :: _ => beqb c x2d | [] => false end) = false \/ sign = [cPlus] /\ (match s with c :: _ => beqb c x2d | [] => false end) = false \/ sign = [x2d] /\ (match s with c :: _ => beqb c x2d | [] => false end) = true)).
    { destruct s as [|c s]; [exists [], []; splits; auto 9|]. destruct (beqb c x2d) eqn:A; cbn [orb]; [apply beqb_eq in A; subst; exists [x2d], s; splits; auto 9|]. destruct (beqb c cPlus) eqn:B; [apply beqb_eq in B; subst; exists [cPlus], s; splits; auto 9|]. exists [], (c :: s). splits; auto 9. }
    destruct P as (sign & d & E & Ed & Q). rewrite Ed in H. destruct d as [|d0 d]; [discriminate|]. destruct (span_digits_sound (d0 :: d)) as (A & B & C). destruct (snd (span_digits (d0 :: d))) as [|x y]; [|discriminate]. rewrite app_nil_r in A. rewrite <- A in B. remember (match s with c :: _ => beqb c x2d | [] => false end) as neg. destruct (_ && _) eqn:R in H; [|discriminate]. apply some1 in H.
    assert (Dv : fst (read_digits (d0 :: d) 0) = decimal (d0 :: d)) by (rewrite <- (app_nil_r (d0 :: d)) at 1; rewrite (read_digits_val _ [] 0 B I); reflexivity). rewrite Dv in *. exists sign, (d0 :: d). splits; auto; try discriminate; [destruct neg; lia| |].
    + destruct neg; lia.
    + destruct Q as [[-> _]|[[-> _]|[-> ->]]]; auto. right; right. split; [reflexivity|lia].
  - intros (sign & d & -> & Ne & D & R & V & Q). assert (P : (match sign ++ d with c :: s' => if beqb c x2d || beqb c cPlus then s' else sign ++ d | [] => [] end) = d /\ (if (match sign ++ d with c :: _ => beqb c x2d | [] => false end) then - Z.of_N (decimal d) else Z.of_N (decimal d))%Z = n).
    { destruct Q as [->|[->|[-> ->]]]; cbn [app].
      - destruct d as [|d0 d]; [contradiction|]. inversion D as [|? ? D0 D1]; subst. assert (X : beqb d0 x2d = false) by (unfold beqb; change (bn x2d) with 45; lia). assert (Y : beqb d0 cPlus = false) by (unfold beqb; change (bn cPlus) with 43; lia). rewrite X, Y. auto.
      - change (beqb cPlus x2d) with false. change (beqb cPlus cPlus) with true. auto.
      - change (beqb x2d x2d) with true. cbn [orb]. split; [reflexivity|lia]. }
    destruct P as [P1 P2]. cbv zeta. rewrite P1. destruct d as [|d0 d]; [contradiction|]. assert (Sd : span_digits (d0 :: d) = (d0 :: d, [])) by (rewrite <- (app_nil_r (d0 :: d)) at 1; exact (span_digits_complete _ [] D I)). assert (Rd : fst (read_digits (d0 :: d) 0) = decimal (d0 :: d)) by (rewrite <- (app_nil_r (d0 :: d)) at 1; rewrite (read_digits_val _ [] 0 D I); reflexivity). rewrite Sd. cbn [snd]. rewrite Rd. rewrite P2. destruct ((- 2 ^ 31 <=? n) && (n <? 2 ^ 31))%Z eqn:F; [reflexivity|lia].
Qed.
Lemma unit_iff : forall u n x, (0 < n)%Z -> ((if beqb u x68 then i64 (n * nsHour) else if beqb u x6d then i64 (n * 60000000000) else if beqb u x73 then i64 (n * 1000000000) else Err ERuntime) = Ok x <-> exists k, unit_text u k /\ (n * k < 2 ^ 63)%Z /\ x = (n * k)%Z).
Proof using. clear.
  intros u n x Hn. assert (I : forall z, (0 <= z)%Z -> i64 z = Ok x <-> (z < 2 ^ 63)%Z /\ x = z).
  { intros z Hz. unfold i64. destruct (_ && _) eqn:R; [split; [intro H; injection H as <-; lia|intros [_ ->]; reflexivity]|split; [discriminate|lia]]. }
  split.
  - destruct (beqb u x68) eqn:A; [apply beqb_eq in A; subst; rewrite I by (unfold nsHour; lia); intros [L ->]; exists nsHour; splits; auto; constructor|]. destruct (beqb u x6d) eqn:B; [apply beqb_eq in B; subst; rewrite I by lia; intros [L ->]; exists 60000000000%Z; splits; auto; constructor|]. destruct (beqb u x73) eqn:C; [apply beqb_eq in C; subst; rewrite I by lia; intros [L ->]; exists 1000000000%Z; splits; auto; constructor|discriminate].
  - intros (k & [] & L & ->); cbn [beqb]; [change (beqb x68 x68) with true|change (beqb x6d x68) with false; change (beqb x6d x6d) with true|change (beqb x73 x68) with false; change (beqb x73 x6d) with false; change (beqb x73 x73) with true]; cbn iota; apply I; unfold nsHour in *; lia.
Qed.
Lemma refresh_iff : forall l z, (exists l', refreshPeriod l = Ok (z, l') /\ l' = []) <-> refresh_text l z.
Proof using. clear.
  intros l z. split.
  - intros (l' & H & ->). unfold refreshPeriod in H. destruct l as [|[k v] l]; [injection H as <-; constructor|]. destruct (iequals k (str "refresh")) eqn:K; cbn [negb] in H; [|discriminate]. apply reads_iff in K. destruct (dat v) as [|c s] eqn:D; [discriminate|]. assert (E : c :: s = removelast (c :: s) ++ [last (c :: s) x00]) by (apply app_removelast_last; discriminate). remember (removelast (c :: s)) as a. remember (last (c :: s) x00) as u. rewrite E in D.
    destruct (cast_i32 a) as [n|] eqn:C; [|discriminate]. destruct (n <? 0)%Z eqn:N0; [discriminate|]. apply cast_nat in C; [|lia]. destruct (n =? 0)%Z eqn:N1; [apply Z.eqb_eq in N1; subst n; injection H as <- ->; eapply RF_zero; eauto|]. destruct (if beqb u x68 then _ else _) as [x|] eqn:U in H; cbn [bind] in H; [|discriminate]. injection H as <- ->. apply unit_iff in U; [|lia]. destruct U as (k0 & U & L & ->). eapply RF_period; eauto. lia.
  - intro H. exists []. split; [|reflexivity]. destruct H as [|[k v] s u P V C|[k v] s u n m P V C Pos U L]; [reflexivity| |]; unfold prop, value in *; cbn [fst snd refreshPeriod] in *; apply reads_iff in P; rewrite P; cbn [negb]; rewrite V; destruct (s ++ [u]) as [|c0 s0] eqn:E; try (destruct s; discriminate); rewrite <- E, removelast_last, last_last.
    + apply cast_nat in C; [|lia]. rewrite C. reflexivity.
    + apply cast_nat in C; [|lia]. rewrite C. destruct (n <? 0)%Z eqn:N0; [lia|]. destruct (n =? 0)%Z eqn:N1; [lia|]. assert (X : (if beqb u x68 then i64 (n * nsHour) else if beqb u x6d then i64 (n * 60000000000) else if beqb u x73 then i64 (n * 1000000000) else Err ERuntime) = Ok (n * m)%Z) by (apply unit_iff; eauto). rewrite X. reflexivity.
Qed.
Definition of_sec (s : section) : option leff := match s with SAnchor a => Some a | _ => None end.
Lemma ta_sound : forall c x, ta_create c = Ok x -> exists s, anchor_text (kids c) s /\ of_sec s = x /\ (x = None -> s = SAny).
Proof using. clear.
  intros c x H. unfold ta_create in H. ex H. destruct E as (t & E & P1 & ->). rewrite E. cbn [fst snd] in H. destruct (iequals (value t) (str "file")) eqn:A.
  - apply reads_iff in A. ex H. destruct E0 as (f & -> & P2 & ->). destruct (refreshPeriod l0) as [[z l1]|] eqn:R; cbn [bind fst snd] in H; [|discriminate]. dn H. subst. injection H as <-. assert (R2 : refresh_text l0 z) by (apply refresh_iff; eauto). eexists. splits; [eapply AT_file; eauto|reflexivity|discriminate].
  - destruct (iequals (value t) (str "base64")) eqn:B.
    + apply reads_iff in B. ex H. destruct E0 as (b & -> & P2 & ->). dn H. subst. injection H as <-. eexists. splits; [eapply AT_text; eauto|reflexivity|discriminate].
    + destruct (iequals (value t) (str "dir")) eqn:C.
      * apply reads_iff in C. ex H. destruct E0 as (f & -> & P2 & ->). destruct (refreshPeriod l0) as [[z l1]|] eqn:R; cbn [bind fst snd] in H; [|discriminate]. dn H. subst. injection H as <-. assert (R2 : refresh_text l0 z) by (apply refresh_iff; eauto). eexists. splits; [eapply AT_dir; eauto|reflexivity|discriminate].
      * destruct (iequals (value t) (str "any")) eqn:D; [|discriminate]. apply reads_iff in D. injection H as <-. exists SAny. splits; [now apply AT_any|reflexivity|reflexivity].
Qed.
Lemma ta_complete : forall c s, anchor_text (kids c) s -> ta_create c = Ok (of_sec s) /\ (of_sec s = None -> s = SAny).
Proof using. clear.
  intros c s H. split; [|destruct H; cbn; congruence]. unfold ta_create. inversion H as [t f l z P R F T Ek Es|t f l z P R F T Ek Es|t b P R F Ek Es|t ig P R Ek Es]; subst; rewrite (expect_ok _ _ _ P); cbn [bind fst snd of_sec].
  - apply reads_iff in R. rewrite R, (expect_ok _ _ _ F). cbn [bind fst snd]. apply refresh_iff in T. destruct T as (l' & -> & ->). reflexivity.
  - other R. other R. apply reads_iff in R. rewrite R, (expect_ok _ _ _ F). cbn [bind fst snd]. apply refresh_iff in T. destruct T as (l' & -> & ->). reflexivity.
  - other R. apply reads_iff in R. rewrite R, (expect_ok _ _ _ F). reflexivity.
  - other R. other R. other R. apply reads_iff in R. rewrite R. reflexivity.
Qed.

(* ---- load ---- *)
Definition is_any (l : list section) : bool := existsb (fun s => match s with SAny => true | _ => false end) l.
Definition says_p (p : vpol) (by_ : bool) (rs : list srule) : Prop :=
  vp_bypass p = by_ /\ Forall2 says_r (vp_data p) (List.filter sr_data rs) /\ Forall2 says_r (vp_int p) (List.filter (fun r => negb (sr_data r)) rs).
Lemma flat_nil : forall {A B} (f : A -> list B) a l, flat_map f (a :: l) = f a ++ flat_map f l.
Proof using. reflexivity. Qed.
Lemma load_all_sound : forall anchor l p q ef, load_all re_count anchor l p = (q, ef, Ok tt) -> forall b rs, says_p p b rs -> exists s, Forall2 (section_text re_count) l s /\ ef = anchors_of s /\ Forall (fun a => anchor a = None) ef /\
  vp_configured q = vp_configured p /\ says_p q (b || is_any s) (rs ++ rules_of s).
Proof using Dot Blank KeyOk. clear re_match uf stack.
  intros anchor. induction l as [|[k v] l IH]; intros p q ef H b rs Sp; cbn [load_all] in H.
  - injection H as <- <-. exists []. splits; auto. rewrite orb_false_r, app_nil_r. exact Sp.
  - destruct (iequals k (str "rule")) eqn:K.
    + apply reads_iff in K. destruct (rl_create re_count v) as [r|] eqn:R; [|discriminate]. destruct (rl_sound _ _ R) as (sr & T & S0). assert (S1 : says_p (if rl_data r then mkVPol (vp_configured p) (vp_bypass p) (vp_data p ++ [r]) (vp_int p) else mkVPol (vp_configured p) (vp_bypass p) (vp_data p) (vp_int p ++ [r])) b (rs ++ [sr])).
      { destruct Sp as (S1 & S2 & S3), S0 as (D & S0). rewrite D. unfold says_p. rewrite !filter_app. cbn [List.filter]. destruct (sr_data sr) eqn:Dd; cbn [vp_bypass vp_data vp_int negb]; rewrite ?app_nil_r; splits; auto; (apply Forall2_app; auto; constructor; [split; [congruence|exact S0]|constructor]). }
      destruct (IH _ _ _ H _ _ S1) as (s & A1 & A2 & A3 & A4 & A5). exists (SRule sr :: s). splits; auto; [constructor; auto; now apply XT_rule|rewrite A4; destruct (rl_data r); reflexivity|]. rewrite <- app_assoc in A5. exact A5.
    + destruct (iequals k (str "trust-anchor")) eqn:K2; [|discriminate]. apply reads_iff in K2. destruct (ta_create v) as [[a|]|] eqn:T; [| |discriminate]; destruct (ta_sound _ _ T) as (sa & T1 & T2 & T3).
      * destruct (anchor a) eqn:An; [discriminate|]. destruct (load_all re_count anchor l p) as [[q' ef'] r'] eqn:L. cbn [fst snd] in H. injection H as <- <- ->. destruct (IH _ _ _ L _ _ Sp) as (s & A1 & A2 & A3 & A4 & A5). destruct sa as [|a'|]; try discriminate. cbn in T2. injection T2 as ->. exists (SAnchor a :: s). splits; auto; [constructor; auto; now apply XT_anchor|cbn; now f_equal].
      * rewrite (T3 eq_refl) in T1. assert (S1 : says_p (mkVPol (vp_configured p) true (vp_data p) (vp_int p)) true rs) by (destruct Sp as (S1 & S2); split; [reflexivity|exact S2]). destruct (IH _ _ _ H _ _ S1) as (s & A1 & A2 & A3 & A4 & A5). exists (SAny :: s). splits; auto; [constructor; auto; now apply XT_anchor|]. cbn [is_any existsb orb] in *. rewrite orb_true_r. exact A5.
Qed.
Lemma load_all_complete : forall anchor l s, Forall2 (section_text re_count) l s -> Forall (fun a => anchor a = None) (anchors_of s) -> forall p, snd (load_all re_count anchor l p) = Ok tt.
Proof using Dot Blank KeyOk. clear re_match uf stack.
  intros anchor. induction 1 as [|[k v] sc l s T F IH]; intros An p; [reflexivity|]. cbn [load_all]. inversion T as [p0 r P Tr Ek Es|p0 s0 P Ta Ek Es]; subst; unfold prop in P; cbn [fst snd] in *.
  - apply reads_iff in P. rewrite P. destruct (rl_complete _ _ Tr) as (r' & -> & _). apply IH. exact An.
  - other P. apply reads_iff in P. rewrite P. destruct (ta_complete _ _ Ta) as [-> Z]. destruct sc as [r|a|]; cbn [of_sec] in *; [discriminate (Z eq_refl)| |apply IH; exact An]. cbn [anchors_of flat_map app] in An. inversion An as [|? ? A0 A1]; subst. rewrite A0. cbn [snd]. apply IH. exact A1.
Qed.
Lemma load_all_says : forall anchor l s, Forall2 (section_text re_count) l s -> forall p b rs, says_p p b rs -> snd (load_all re_count anchor l p) = Ok tt ->
  vp_configured (fst (fst (load_all re_count anchor l p))) = vp_configured p /\ snd (fst (load_all re_count anchor l p)) = anchors_of s /\ says_p (fst (fst (load_all re_count anchor l p))) (b || is_any s) (rs ++ rules_of s).
Proof using Dot Blank KeyOk. clear re_match uf stack.
  intros anchor. induction 1 as [|[k v] sc l s T F IH]; intros p b rs Sp; cbn [load_all]; [intros _; splits; auto; rewrite orb_false_r, app_nil_r; exact Sp|]. inversion T as [p0 r P Tr Ek Es|p0 s0 P Ta Ek Es]; subst; unfold prop in P; cbn [fst snd] in *.
  - apply reads_iff in P. rewrite P. destruct (rl_complete _ _ Tr) as (r' & -> & S0). intro H. assert (S1 : says_p (if rl_data r' then mkVPol (vp_configured p) (vp_bypass p) (vp_data p ++ [r']) (vp_int p) else mkVPol (vp_configured p) (vp_bypass p) (vp_data p) (vp_int p ++ [r'])) b (rs ++ [r])).
    { destruct Sp as (S1 & S2 & S3), S0 as (D & S0). rewrite D. unfold says_p. rewrite !filter_app. cbn [List.filter]. destruct (sr_data r) eqn:Dd; cbn [vp_bypass vp_data vp_int negb]; rewrite ?app_nil_r; splits; auto; (apply Forall2_app; auto; constructor; [split; [congruence|exact S0]|constructor]). }
    destruct (IH _ _ _ S1 H) as (A1 & A2 & A3). splits; auto; [rewrite A1; destruct (rl_data r'); reflexivity|]. rewrite <- app_assoc in A3. exact A3.
  - other P. apply reads_iff in P. rewrite P. destruct (ta_complete _ _ Ta) as [-> Z]. destruct sc as [r|a|]; cbn [of_sec] in *; [discriminate (Z eq_refl)| |].
    + destruct (anchor a); [discriminate|]. cbv zeta. cbn [fst snd]. intro H. destruct (IH _ _ _ Sp H) as (A1 & A2 & A3). splits; auto. cbn [anchors_of flat_map app]. now rewrite A2.
    + intro H. assert (S1 : says_p (mkVPol (vp_configured p) true (vp_data p) (vp_int p)) true rs) by (destruct Sp as (S1 & S2); split; [reflexivity|exact S2]). destruct (IH _ _ _ S1 H) as (A1 & A2 & A3). splits; auto. cbn [is_any existsb orb] in *. rewrite orb_true_r. exact A3.
Qed.
End C.

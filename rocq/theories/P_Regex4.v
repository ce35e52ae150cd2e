(* RegexTopMatcher *)
From Coq Require Import List Lia ZifyBool ZifyNat ZifyN Arith.
From Verif Require Import Base BaseLemmas M_Tlv M_Str M_Name S_Name P_Str P_NameUri M_Regex S_Regex P_Regex P_Regex2 P_Regex3.
Import ListNotations.
Open Scope N_scope.

Definition anyp : pat := PRep (PSet true [[cPeriod; cStar]]) 0 None.
Lemma anyStar_spelled : spelled [anyp] anyStar.
Proof.
  change anyStar with (angled [cPeriod; cStar] ++ [cStar] ++ []). apply P_set; [|constructor|constructor]. apply S_one. split; [|intros [E|[E|[]]]; discriminate]. split; [reflexivity|]. intros p q E. destruct p as [|a [|b [|d p]]]; try discriminate E; [cbn; lia| |]; injection E; intros; subst; vm_compute; lia.
Qed.
Lemma spelled_unique : forall ps qs s, spelled ps s -> spelled qs s -> ps = qs.
Proof.
  intros ps qs s A B. set (rc := fun _ : bytes => Some 0). assert (V : forall l, Forall (valid rc) l) by (intro l; apply Forall_forall; intros x _; discriminate).
  destruct (rx_list_complete rc ps s A (S (length s)) 0 ltac:(lia) (V _)) as (l & n & E & M). destruct (rx_list_complete rc qs s B (S (length s)) 0 ltac:(lia) (V _)) as (l2 & n2 & E2 & M2). rewrite E in E2. injection E2 as <- <-. congruence.
Qed.
(* ---- ends of texts ---- *)
Lemma last_app : forall (a b : bytes) d, b <> [] -> last (a ++ b) d = last b d.
Proof. induction a as [|x a IH]; intros b d H; [reflexivity|]. cbn [app last]. destruct (a ++ b) eqn:E; [destruct a; [cbn in E; congruence|discriminate]|]. rewrite <- E. now apply IH. Qed.
Lemma quant_last : forall q mn mx, quant q mn mx -> q = [] \/ q = [cStar] \/ q <> [] /\ (last q x00 = cQuest \/ last q x00 = cPlus \/ last q x00 = cRcur).
Proof.
  intros q mn mx H. destruct H as [| | | |d D|d D|d D|d e D D2 L]; auto; try (right; right; split; [discriminate|]; cbn; auto; fail); right; right; (split; [discriminate|]); right; right.
  - change (cLcur :: d ++ [cRcur]) with ((cLcur :: d) ++ [cRcur]). now rewrite last_last.
  - change (cLcur :: d ++ [cComma; cRcur]) with ((cLcur :: d) ++ [cComma; cRcur]). now rewrite last_app.
  - change (cLcur :: cComma :: d ++ [cRcur]) with ((cLcur :: cComma :: d) ++ [cRcur]). now rewrite last_last.
  - replace (cLcur :: d ++ cComma :: e ++ [cRcur]) with ((cLcur :: d ++ cComma :: e) ++ [cRcur]) by (cbn; now rewrite <- app_assoc). now rewrite last_last.
Qed.
Lemma set_last : forall s i l, set_text s i l -> s <> [] /\ (last s x00 = cGt \/ last s x00 = cRbra).
Proof.
  intros s i l H. destruct (set_text_shape _ _ _ H) as (c & a & -> & Hc). split; [discriminate|]. change (c :: a ++ ?z) with ((c :: a) ++ z). rewrite last_last. destruct Hc as [[-> _]|[-> _]]; auto.
Qed.
Lemma spelled_last : forall ps s, spelled ps s -> s = [] \/ last s x00 <> cDollar.
Proof.
  induction 1 as [|l s ps t Hs _ B Ht IHt|l s q mn mx ps t Hs _ B Q Qn Ht IHt|st incl l q mn mx ps t T Q Ht IHt]; auto; right.
  - destruct IHt as [->|IHt].
    + change (cLpar :: s ++ [cRpar]) with ((cLpar :: s) ++ [cRpar]). rewrite last_last. discriminate.
    + destruct t as [|t0 t]; [change (cLpar :: s ++ [cRpar]) with ((cLpar :: s) ++ [cRpar]); rewrite last_last; discriminate|]. change (cLpar :: s ++ cRpar :: t0 :: t) with ((cLpar :: s) ++ [cRpar] ++ t0 :: t). rewrite !last_app by discriminate. exact IHt.
  - change (cLpar :: s ++ cRpar :: q ++ t) with ((cLpar :: s) ++ [cRpar] ++ q ++ t). rewrite last_app by discriminate. rewrite last_app by (destruct q; [contradiction|discriminate]). destruct t as [|t0 t].
    + rewrite app_nil_r. destruct (quant_last _ _ _ Q) as [->|[->|[_ [E|[E|E]]]]]; [contradiction|discriminate| | |]; rewrite E; discriminate.
    + rewrite last_app by discriminate. destruct IHt as [E|E]; [discriminate|exact E].
  - destruct t as [|t0 t].
    + rewrite app_nil_r. destruct (set_last _ _ _ T) as [_ L]. destruct (quant_last _ _ _ Q) as [->|[->|[Ne [E|[E|E]]]]]; [rewrite app_nil_r; destruct L as [->| ->]; discriminate|rewrite last_last; discriminate| | |]; rewrite last_app by exact Ne; rewrite E; discriminate.
    + rewrite app_assoc, last_app by discriminate. destruct IHt as [E|E]; [discriminate|exact E].
Qed.
(* a sequence that ends in <.*>* *)
Lemma app_split : forall (a b c d : bytes), a ++ b = c ++ d -> (exists e, c = a ++ e /\ b = e ++ d) \/ (exists e, e <> [] /\ a = c ++ e /\ d = e ++ b).
Proof.
  induction a as [|x a IH]; intros b c d E.
  - left. exists c. auto.
  - destruct c as [|y c]; [right; exists (x :: a); splits; auto; discriminate|]. injection E as <- E. destruct (IH b c d E) as [(e & -> & ->)|(e & Ne & -> & ->)]; [left|right]; exists e; auto.
Qed.
Lemma suffix_starter : forall e b, e <> [] -> anyStar = e ++ b -> starter b -> b = [].
Proof.
  intros e b Ne E St. change anyStar with [cLt; cPeriod; cStar; cGt; cStar] in E. destruct e as [|e0 e]; [contradiction|]. injection E as _ E.
  destruct e as [|e1 e]; [cbn in E; subst b; cbn in St; decompose [or] St; discriminate|]. injection E as _ E.
  destruct e as [|e2 e]; [cbn in E; subst b; cbn in St; decompose [or] St; discriminate|]. injection E as _ E.
  destruct e as [|e3 e]; [cbn in E; subst b; cbn in St; decompose [or] St; discriminate|]. injection E as _ E.
  destruct e as [|e4 e]; [cbn in E; subst b; cbn in St; decompose [or] St; discriminate|]. injection E as _ E. destruct e; [cbn in E; now subst|discriminate].
Qed.
Lemma last2 : forall a b x y (s : bytes), s = a ++ [x; y] -> s = b -> last b x00 = y /\ last (removelast b) x00 = x.
Proof. intros a b x y s -> <-. split; [now rewrite last_app|]. replace (a ++ [x; y]) with ((a ++ [x]) ++ [y]) by (now rewrite <- app_assoc). now rewrite removelast_last, last_last. Qed.
Lemma one_item : forall st incl l q mn mx b, set_text st incl l -> quant q mn mx -> st ++ q = b ++ anyStar -> b = [] /\ st = angled [cPeriod; cStar] /\ q = [cStar].
Proof.
  intros st incl l q mn mx b T Q E.
  assert (L : last (st ++ q) x00 = cStar) by (rewrite E, last_app by discriminate; reflexivity). destruct (set_last _ _ _ T) as [Ns Ls].
  destruct (quant_last _ _ _ Q) as [->|[->|[Ne X]]].
  { rewrite app_nil_r in L. rewrite L in Ls. destruct Ls as [X|X]; discriminate X. }
  2:{ rewrite last_app in L by exact Ne. rewrite L in X. decompose [or] X; discriminate. }
  assert (Es : st = b ++ angled [cPeriod; cStar]). { apply (app_inj_tail st (b ++ angled [cPeriod; cStar]) cStar cStar). rewrite E, <- app_assoc. reflexivity. }
  subst st. inversion T as [e [[C P] _] E1|? _ _ E1|? _ _ E1].
  - destruct b as [|b0 b]; [auto|]. exfalso. injection E1 as _ E1. change (angled [cPeriod; cStar]) with ([cLt; cPeriod; cStar] ++ [cGt]) in E1. rewrite app_assoc in E1. apply app_inj_tail in E1. destruct E1 as [-> _]. specialize (P b [cLt; cPeriod; cStar] eq_refl). rewrite !count_app in C. change (count cGt [cLt; cPeriod; cStar]) with 0%nat in C. change (count cLt [cLt; cPeriod; cStar]) with 1%nat in C. lia.
  - exfalso. apply (f_equal (fun z => last z x00)) in E1. change (cLbra :: ?x ++ [cRbra]) with ((cLbra :: x) ++ [cRbra]) in E1. rewrite last_last, last_app in E1 by discriminate. discriminate E1.
  - exfalso. apply (f_equal (fun z => last z x00)) in E1. change (cLbra :: cCaret :: ?x ++ [cRbra]) with ((cLbra :: cCaret :: x) ++ [cRbra]) in E1. rewrite last_last, last_app in E1 by discriminate. discriminate E1.
Qed.
Lemma spelled_any : forall ps s, spelled ps s -> forall b, s = b ++ anyStar -> exists qs, ps = qs ++ [anyp] /\ spelled qs b.
Proof.
  induction 1 as [|l s ps t Hs _ B Ht IHt|l s q mn mx ps t Hs _ B Q Qn Ht IHt|st incl l q mn mx ps t T Q Ht IHt]; intros b E.
  - destruct b; discriminate.
  - change (cLpar :: s ++ cRpar :: t) with ((cLpar :: s) ++ [cRpar] ++ t) in E. rewrite app_assoc in E. destruct (app_split _ _ _ _ E) as [(e & -> & ->)|(e & Ne & E1 & E2)].
    + destruct (IHt e eq_refl) as (qs & -> & Sq). exists (PGrp l :: qs). split; [reflexivity|]. cbn [app]. rewrite <- app_assoc. cbn [app]. apply P_group; auto.
    + exfalso. pose proof (suffix_starter e t Ne E2 (spelled_starter _ _ Ht)) as Z. subst t. rewrite app_nil_r in E2. apply (f_equal (fun z => last z x00)) in E1. rewrite last_last, last_app in E1 by exact Ne. rewrite <- E2 in E1. discriminate E1.
  - change (cLpar :: s ++ cRpar :: q ++ t) with ((cLpar :: s) ++ [cRpar] ++ q ++ t) in E. rewrite !app_assoc in E. destruct (app_split _ _ _ _ E) as [(e & -> & ->)|(e & Ne & E1 & E2)].
    + destruct (IHt e eq_refl) as (qs & -> & Sq). exists (PRep (PGrp l) mn mx :: qs). split; [reflexivity|]. rewrite <- !app_assoc. cbn [app]. apply P_group_rep; auto.
    + exfalso. pose proof (suffix_starter e t Ne E2 (spelled_starter _ _ Ht)) as Z. subst t. rewrite app_nil_r in E2. subst e. destruct (quant_last _ _ _ Q) as [->|[->|[_ X]]]; [contradiction| |].
      * change anyStar with ([cLt; cPeriod; cStar; cGt] ++ [cStar]) in E1. rewrite app_assoc in E1. apply app_inj_tail in E1. destruct E1 as [E1 _]. apply (f_equal (fun z => last z x00)) in E1. rewrite last_last, last_app in E1 by discriminate. discriminate E1.
      * apply (f_equal (fun z => last z x00)) in E1. rewrite !last_app in E1 by (auto; discriminate). rewrite E1 in X. decompose [or] X; discriminate.
  - rewrite app_assoc in E. destruct (app_split _ _ _ _ E) as [(e & -> & ->)|(e & Ne & E1 & E2)].
    + destruct (IHt e eq_refl) as (qs & -> & Sq). exists (PRep (PSet incl l) mn mx :: qs). split; [reflexivity|]. rewrite <- app_assoc. apply P_set; auto.
    + pose proof (suffix_starter e t Ne E2 (spelled_starter _ _ Ht)) as Z. subst t. rewrite app_nil_r in E2. subst e. destruct (one_item _ _ _ _ _ _ _ T Q E1) as (-> & -> & ->). exists []. split; [|constructor].
      assert (S1 : spelled (PRep (PSet incl l) mn mx :: ps) anyStar). { change anyStar with (angled [cPeriod; cStar] ++ [cStar] ++ []). apply P_set; auto. } exact (spelled_unique _ _ _ S1 anyStar_spelled).
Qed.
Definition tail (dollar : bool) : list pat := if dollar then [] else [anyp].
Definition tail_text (dollar : bool) : bytes := if dollar then [] else anyStar.
Lemma spelled_tail : forall ps b dollar, spelled ps b -> spelled (ps ++ tail dollar) (b ++ tail_text dollar).
Proof. intros. destruct dollar; cbn [tail tail_text]; [now rewrite !app_nil_r|]. apply spelled_app; auto. apply anyStar_spelled. Qed.

Section T.
Variable re_count : bytes -> option N.
Variable re_match : bytes -> bytes -> option (list bytes).
Variable uf : uri_format.
Variable stack : nat.
Notation rt_new := (rt_new re_count).
Notation rt_match := (rt_match re_match uf stack).
Notation marks_of := (marks_of re_count).
Notation valid := (valid re_count).
Notation acc := (acc re_match).
Notation widths := (widths marks_of).
Notation numbl := (numbl marks_of).

Definition compiled (t : rtop) (caret dollar : bool) (ps : list pat) : Prop :=
  (map erase (t_prim t) = ps ++ tail dollar /\ numbl (t_prim t) 0 /\ t_pn t = widths (ps ++ tail dollar)) /\
  match t_sec t with
  | None => caret = true
  | Some s => caret = false /\ map erase (fst s) = anyp :: ps ++ tail dollar /\ numbl (fst s) 0 /\ snd s = widths (anyp :: ps ++ tail dollar)
  end.
Lemma top_shape : forall caret dollar ps b, spelled ps b -> top_text caret b dollar <> [] ->
  let s := top_text caret b dollar in
  let e1 := if beqb (last s x00) cDollar then removelast s else s ++ anyStar in
  e1 = (if caret then [cCaret] else []) ++ b ++ tail_text dollar /\ (match e1 with c :: _ => beqb c cCaret | [] => false end) = caret.
Proof using . clear re_count re_match uf stack.
  intros caret dollar ps b Sp Ne s e1. assert (E : e1 = (if caret then [cCaret] else []) ++ b ++ tail_text dollar).
  { unfold e1, s, top_text. destruct dollar; cbn [tail_text].
    - rewrite app_assoc, last_last, removelast_last. change (beqb cDollar cDollar) with true. cbn iota. now rewrite app_nil_r.
    - rewrite app_nil_r. assert (L : beqb (last ((if caret then [cCaret] else []) ++ b) x00) cDollar = false).
      { apply beqb_ne. destruct (spelled_last _ _ Sp) as [->|L]; [destruct caret; [discriminate|now destruct Ne]|]. destruct b as [|b0 b]; [destruct caret; discriminate|]. rewrite last_app by discriminate. exact L. }
      rewrite L. now rewrite <- app_assoc. }
  split; [exact E|]. rewrite E. destruct caret; [reflexivity|]. cbn [app]. pose proof (spelled_starter _ _ (spelled_tail _ _ dollar Sp)) as St. destruct (b ++ tail_text dollar) as [|c r]; [reflexivity|]. cbn in St. decompose [or] St; subst; reflexivity.
Qed.
Lemma new_inv : forall caret dollar ps b x t, spelled ps b -> rt_new (top_text caret b dollar) x = Ok t -> compiled t caret dollar ps /\ t_expand t = x /\ Forall valid (flat_map exprs ps).
Proof using re_count. clear re_match uf stack.
  intros caret dollar ps b x t Sp H. destruct (list_eq_dec (fun a b => Byte.byte_eq_dec a b) (top_text caret b dollar) []) as [E0|Ne]; [rewrite E0 in H; discriminate|].
  destruct (top_shape caret dollar ps b Sp Ne) as [E1 Ec]. cbv zeta in E1, Ec. unfold M_Regex.rt_new in H. destruct (top_text caret b dollar) as [|s0 s] eqn:Es; [contradiction|]. rewrite <- Es in *. cbv zeta in H. rewrite Ec in H. rewrite E1 in H. clear E1 Ec.
  pose proof (spelled_tail ps b dollar Sp) as Sp1.
  assert (Prim : forall l n, rx_compile re_count (b ++ tail_text dollar) = Ok (l, n) -> map erase l = ps ++ tail dollar /\ numbl l 0 /\ n = widths (ps ++ tail dollar) /\ Forall valid (flat_map exprs ps)).
  { intros l n C. apply rx_list_sound in C. destruct C as (S1 & N1 & W & V). rewrite (spelled_unique _ _ _ S1 Sp1) in W, V. splits; [exact (spelled_unique _ _ _ S1 Sp1)|exact N1|exact W|]. rewrite flat_map_app in V. apply Forall_app in V. tauto. }
  destruct caret; cbn [app tl] in H.
  - cbn [bind] in H. destruct (rx_compile re_count (b ++ tail_text dollar)) as [[l n]|] eqn:C; cbn [bind fst snd] in H; [|discriminate]. injection H as <-. destruct (Prim _ _ eq_refl) as (A & B & D & V). splits; auto. unfold compiled. cbn. auto.
  - destruct (rx_compile re_count (anyStar ++ b ++ tail_text dollar)) as [[l2 n2]|] eqn:C2; cbn [bind fst snd] in H; [|discriminate]. destruct (rx_compile re_count (b ++ tail_text dollar)) as [[l n]|] eqn:C; cbn [bind fst snd] in H; [|discriminate]. injection H as <-. destruct (Prim _ _ eq_refl) as (A & B & D & V). splits; auto. unfold compiled. cbn [t_prim t_pn t_sec fst snd]. splits; auto; apply rx_list_sound in C2; destruct C2 as (S2 & N2 & W2 & _); pose proof (spelled_unique _ _ _ S2 (spelled_app _ _ _ _ anyStar_spelled Sp1)) as U; cbn [app] in U; auto. rewrite U in W2. lia.
Qed.
Lemma new_ok : forall caret dollar ps b x, spelled ps b -> top_text caret b dollar <> [] -> Forall valid (flat_map exprs ps) -> valid [cPeriod; cStar] -> exists t, rt_new (top_text caret b dollar) x = Ok t.
Proof using re_count. clear re_match uf stack.
  intros caret dollar ps b x Sp Ne V Vd. destruct (top_shape caret dollar ps b Sp Ne) as [E1 Ec]. cbv zeta in E1, Ec. unfold M_Regex.rt_new. destruct (top_text caret b dollar) as [|s0 s] eqn:Es; [contradiction|]. rewrite <- Es in *. cbv zeta. rewrite Ec, E1. clear E1 Ec.
  pose proof (spelled_tail ps b dollar Sp) as Sp1. assert (V1 : Forall valid (flat_map exprs (ps ++ tail dollar))). { rewrite flat_map_app. apply Forall_app. split; [exact V|]. destruct dollar; cbn; auto. }
  destruct (rx_list_complete re_count _ _ Sp1 (S (length (b ++ tail_text dollar))) 0 ltac:(lia) V1) as (l & n & C & _). destruct caret; cbn [app tl bind]; unfold rx_compile.
  - rewrite C. cbn [bind]. eauto.
  - pose proof (spelled_app _ _ _ _ anyStar_spelled Sp1) as Sp2. assert (V2 : Forall valid (flat_map exprs ([anyp] ++ ps ++ tail dollar))) by (cbn; constructor; auto). destruct (rx_list_complete re_count _ _ Sp2 (S (length (anyStar ++ b ++ tail_text dollar))) 0 ltac:(lia) V2) as (l2 & n2 & C2 & _). rewrite C2. cbn [bind]. rewrite C. cbn [bind]. eauto.
Qed.
Lemma new_parse : forall s x t, rt_new s x = Ok t -> exists caret dollar b ps, s = top_text caret b dollar /\ spelled ps b.
Proof using re_count. clear re_match uf stack.
  intros s x t H. unfold M_Regex.rt_new in H. destruct s as [|s0 s'] eqn:Es; [discriminate|]. rewrite <- Es in *. assert (Ns : s <> []) by (subst; discriminate). clear Es s0 s'. cbv zeta in H.
  set (dollar := beqb (last s x00) cDollar) in *. set (e1 := if dollar then removelast s else s ++ anyStar) in *. set (caret := match e1 with c :: _ => beqb c cCaret | [] => false end) in *.
  assert (E1 : e1 = (if caret then [cCaret] else []) ++ (if caret then tl e1 else e1)). { unfold caret. destruct e1 as [|c r]; [reflexivity|]. destruct (beqb_cases c cCaret) as [[-> E]|[_ E]]; rewrite E; reflexivity. }
  destruct (if caret then Ok None else _) as [sec|] eqn:Sec; cbn [bind] in H; [|discriminate]. destruct (rx_compile re_count (if caret then tl e1 else e1)) as [[l n]|] eqn:C; cbn [bind] in H; [|discriminate]. clear H. apply rx_list_sound in C. destruct C as (S1 & _). set (b1 := if caret then tl e1 else e1) in *.
  exists caret, dollar. destruct dollar eqn:D.
  - exists b1, (map erase l). split; [|exact S1]. unfold top_text. rewrite app_assoc, <- E1. unfold e1. unfold dollar in D. apply beqb_eq in D. rewrite <- D. apply app_removelast_last. exact Ns.
  - assert (Eb : exists b, b1 = b ++ anyStar /\ s = (if caret then [cCaret] else []) ++ b).
    { unfold b1. destruct caret eqn:Cr; [|exists s; split; [reflexivity|reflexivity]]. destruct s as [|c r]; [contradiction|]. unfold caret, e1 in Cr. cbn [app] in Cr. apply beqb_eq in Cr. subst c. exists r. split; reflexivity. }
    destruct Eb as (b & Eb & Esb). destruct (spelled_any _ _ S1 b Eb) as (qs & _ & Sq). exists b, qs. split; [|exact Sq]. unfold top_text. now rewrite app_nil_r.
Qed.
(* ---- matching ---- *)
Definition same (t t' : rtop) : Prop := t_prim t' = t_prim t /\ t_pn t' = t_pn t /\ t_sec t' = t_sec t /\ t_expand t' = t_expand t.
Lemma rt_match_same : forall n t b t', rt_match n t = Ok (b, t') -> same t t'.
Proof.
  intros n t b t' H. unfold M_Regex.rt_match in H. destruct (match_list re_match uf stack (t_prim t) n (t_caps1 t)) as [[b1 c1]|]; cbn [bind fst snd] in H; [|discriminate]. destruct b1; [injection H as _ <-; unfold same; auto|]. destruct (t_sec t) as [s|] eqn:Es.
  - destruct (match_list re_match uf stack (fst s) n (t_caps2 t)) as [[b2 c2]|]; cbn [bind fst snd] in H; [|discriminate]. injection H as _ <-. unfold same. cbn. auto.
  - injection H as _ <-. unfold same. cbn. auto.
Qed.
Lemma used_same : forall t t', used re_match uf stack t t' -> same t t'.
Proof. induction 1 as [|t1 n b t2 _ IH H]; [unfold same; auto|]. apply rt_match_same in H. unfold same in *. intuition congruence. Qed.
Lemma compiled_same : forall t t' a b ps, same t t' -> compiled t a b ps -> compiled t' a b ps.
Proof. intros t t' a b ps (E1 & E2 & E3 & _) H. unfold compiled in *. now rewrite E1, E2, E3. Qed.
Notation lang := (lang acc uf).
Notation langs := (langs acc uf).
Notation lang_top := (lang_top acc uf).
Lemma langs_app : forall ps qs w, langs (ps ++ qs) w <-> exists u v, w = u ++ v /\ langs ps u /\ langs qs v.
Proof.
  unfold S_Regex.langs. induction ps as [|p ps IH]; intros qs w; cbn [app map in_sequence].
  - split; [intro H; exists [], w; auto|intros (u & v & -> & -> & H); exact H].
  - split.
    + intros (u & v & -> & A & B). apply IH in B. destruct B as (u1 & v1 & -> & B1 & B2). exists (u ++ u1), v1. splits; auto; [now rewrite app_assoc|]. exists u, u1. auto.
    + intros (u & v & -> & (u1 & v1 & -> & A & B) & D). exists u1, (v1 ++ v). splits; auto; [now rewrite app_assoc|]. apply IH. eauto.
Qed.
Lemma lang_any : forall w, (forall c, re_match [cPeriod; cStar] (comp_toUri uf c) <> None) -> lang anyp w.
Proof.
  intros w H. unfold anyp. cbn [S_Regex.lang]. exists (map (fun c => [c]) w). splits; try (cbn; lia).
  - induction w as [|c w IH]; [reflexivity|]. cbn. now rewrite <- IH.
  - apply Forall_forall. intros x I. apply in_map_iff in I. destruct I as (c & <- & _). cbn [S_Regex.lang]. exists c. split; [reflexivity|]. exists [cPeriod; cStar]. split; [now left|]. right. apply H.
Qed.
Lemma langs_one : forall p w, langs [p] w <-> lang p w.
Proof. intros. unfold S_Regex.langs. cbn [map in_sequence]. split; [intros (u & v & -> & A & ->); now rewrite app_nil_r|intro H; exists w, []; rewrite app_nil_r; auto]. Qed.
Lemma langs_tail : forall dollar ps w, langs (ps ++ tail dollar) w -> exists v x, w = v ++ x /\ (dollar = true -> x = []) /\ langs ps v.
Proof. intros dollar ps w H. apply langs_app in H. destruct H as (u & v & -> & A & B). exists u, v. splits; auto. intros ->. exact B. Qed.
Lemma tail_langs : forall dollar ps v x, (forall c, re_match [cPeriod; cStar] (comp_toUri uf c) <> None) -> (dollar = true -> x = []) -> langs ps v -> langs (ps ++ tail dollar) (v ++ x).
Proof. intros dollar ps v x D E H. apply langs_app. exists v, x. splits; auto. destruct dollar; cbn [tail]; [now rewrite E|]. apply langs_one, lang_any, D. Qed.
Lemma list_sound : forall l w c c', match_list re_match uf stack l w c = Ok (true, c') -> langs (map erase l) w.
Proof.
  intros l w c c' H. unfold match_list in H. eapply brec_sound; [|exact H]. rewrite map_map. clear. induction l as [|r l IH]; constructor; auto. apply rx_sound.
Qed.
Lemma match_sound : forall t caret dollar ps n t', compiled t caret dollar ps -> rt_match n t = Ok (true, t') -> lang_top caret dollar ps n.
Proof.
  intros t caret dollar ps n t' [(P1 & _) P2] H. unfold M_Regex.rt_match in H. destruct (match_list re_match uf stack (t_prim t) n (t_caps1 t)) as [[b1 c1]|] eqn:M; cbn [bind fst snd] in H; [|discriminate]. destruct b1.
  - apply list_sound in M. rewrite P1 in M. apply langs_tail in M. destruct M as (v & x & -> & D & L). exists [], v, x. auto.
  - destruct (t_sec t) as [[l2 n2]|]; [|discriminate]. cbn [fst snd] in *. destruct P2 as (-> & P2 & _). destruct (match_list re_match uf stack l2 n (t_caps2 t)) as [[b2 c2]|] eqn:M2; cbn [bind fst snd] in H; [|discriminate]. injection H as -> _. apply list_sound in M2. rewrite P2 in M2. apply (langs_app [anyp]) in M2. destruct M2 as (u & v & -> & _ & L). apply langs_tail in L. destruct L as (v1 & x & -> & D & L). exists u, v1, x. splits; auto. discriminate.
Qed.
Lemma list_decides : forall l n, Forall (solid acc uf) (map erase l) -> (n < stack)%nat -> N.of_nat n < two64 - 1 -> decides n (match_list re_match uf stack l) (langs (map erase l)).
Proof.
  intros l n So Hs Hn. unfold match_list. intros w c Hw. apply (brec_decides n (map (match_rx re_match uf stack) l) (map lang (map erase l))); [|exact Hw]. clear w c Hw. rewrite map_map. induction l as [|r l IH]; cbn [map] in *; constructor; inversion So; subst; auto. apply rx_decides; auto.
Qed.
Lemma solid_any : solid acc uf anyp.
Proof. unfold anyp. cbn. split; [exact I|]. intros (c & E & _). discriminate. Qed.
Lemma match_exact : forall t caret dollar ps n, compiled t caret dollar ps -> Forall (solid acc uf) ps -> (length n < stack)%nat -> nlen n < two64 - 1 -> (forall c, re_match [cPeriod; cStar] (comp_toUri uf c) <> None) ->
  exists b t', rt_match n t = Ok (b, t') /\ (b = true <-> lang_top caret dollar ps n).
Proof.
  intros t caret dollar ps n [(P1 & _) P2] So Hs Hn D. assert (So1 : Forall (solid acc uf) (ps ++ tail dollar)) by (apply Forall_app; split; [exact So|]; destruct dollar; repeat constructor; apply solid_any).
  assert (D1 : decides (length n) (match_list re_match uf stack (t_prim t)) (langs (ps ++ tail dollar))) by (rewrite <- P1; apply list_decides; auto; now rewrite P1).
  destruct (D1 n (t_caps1 t) (le_n _)) as (b1 & c1 & E1 & S1). unfold M_Regex.rt_match. rewrite E1. cbn [bind fst snd]. destruct b1.
  - eexists _, _. split; [reflexivity|]. split; auto. intros _. destruct (langs_tail _ _ _ (proj1 S1 eq_refl)) as (v & x & -> & X & L). exists [], v, x. auto.
  - destruct (t_sec t) as [[l2 n2]|]; cbn [fst snd] in *.
    + destruct P2 as (-> & P2 & _). assert (So2 : Forall (solid acc uf) (map erase l2)) by (rewrite P2; constructor; auto; apply solid_any). pose proof (list_decides l2 (length n) So2 Hs Hn) as D2. rewrite P2 in D2. destruct (D2 n (t_caps2 t) (le_n _)) as (b2 & c2 & E2 & S2). rewrite E2. cbn [bind fst snd]. eexists _, _. split; [reflexivity|]. rewrite S2. split.
      * intro L. apply (langs_app [anyp]) in L. destruct L as (u & v & -> & _ & L). apply langs_tail in L. destruct L as (v1 & x & -> & X & L). exists u, v1, x. splits; auto. discriminate.
      * intros (u & v & x & -> & _ & X & L). apply (langs_app [anyp]). exists u, (v ++ x). splits; auto; [apply langs_one, lang_any, D|now apply tail_langs].
    + subst caret. eexists _, _. split; [reflexivity|]. split; [discriminate|]. intros (u & v & x & -> & Eu & X & L). rewrite (Eu eq_refl) in *. cbn [app] in S1. apply S1. now apply tail_langs.
Qed.
(* ---- captures ---- *)
Notation captured := (captured acc uf marks_of).
Notation captured_all := (captured_all acc uf marks_of).
Lemma captured_all_app : forall ps qs i w c, captured_all (ps ++ qs) i w c -> exists u v, w = u ++ v /\ captured_all ps i u c /\ captured_all qs (i + widths ps) v c.
Proof.
  induction ps as [|p ps IH]; intros qs i w c H; cbn [app S_Regex.captured_all] in *.
  - exists [], w. splits; auto. unfold P_Regex2.widths. cbn. now rewrite N.add_0_r.
  - destruct H as (u & v & -> & A & B). apply IH in B. destruct B as (u1 & v1 & -> & B1 & B2). exists (u ++ u1), v1. splits; [now rewrite app_assoc|exists u, u1; auto|]. unfold P_Regex2.widths in *. cbn [map sum fold_right]. fold (sum (map (width marks_of) ps)). now rewrite N.add_assoc.
Qed.
Lemma captured_tail : forall ps dollar i w c, captured_all (ps ++ tail dollar) i w c -> exists v x, w = v ++ x /\ (dollar = true -> x = []) /\ captured_all ps i v c.
Proof. intros ps dollar i w c H. apply captured_all_app in H. destruct H as (u & v & -> & A & B). exists u, v. splits; auto. intros ->. exact B. Qed.
Lemma list_captures : forall l w c c', numbl l 0 -> match_list re_match uf stack l w c = Ok (true, c') -> captured_all (map erase l) 0 w c'.
Proof. intros l w c c' N H. unfold match_list in H. eapply brec_captures; [|exact N|exact H]. apply Forall_forall. intros r _. apply rx_captures. Qed.
Definition active (t : rtop) : caps := if t_used t then t_caps2 t else t_caps1 t.
Definition active_n (t : rtop) : N := if t_used t then match t_sec t with Some s => snd s | None => 0 end else t_pn t.
Lemma widths_tail : forall ps dollar, re_count [cPeriod; cStar] = Some 0 -> widths (ps ++ tail dollar) = widths ps.
Proof.
  intros ps dollar D. unfold P_Regex2.widths. rewrite map_app. assert (X : forall a b, sum (a ++ b) = sum a + sum b). { clear. induction a as [|x a IH]; intro b; [reflexivity|]. cbn [app sum fold_right]. fold (sum (a ++ b)) (sum a). rewrite IH. lia. } rewrite X. destruct dollar; cbn; [lia|]. unfold S_Regex.marks_of. rewrite D. lia.
Qed.
Lemma widths_any : forall ps, re_count [cPeriod; cStar] = Some 0 -> widths (anyp :: ps) = widths ps.
Proof. intros ps D. unfold P_Regex2.widths. cbn. unfold S_Regex.marks_of at 1. rewrite D. reflexivity. Qed.
Lemma match_captures : forall t caret dollar ps n t', re_count [cPeriod; cStar] = Some 0 -> compiled t caret dollar ps -> rt_match n t = Ok (true, t') ->
  t_result t' = n /\ active_n t' = widths ps /\ exists u v x, n = u ++ v ++ x /\ (caret = true -> u = []) /\ (dollar = true -> x = []) /\ captured_all ps 0 v (active t').
Proof.
  intros t caret dollar ps n t' D [(P1 & P2 & P3) P4] H. unfold M_Regex.rt_match in H. destruct (match_list re_match uf stack (t_prim t) n (t_caps1 t)) as [[b1 c1]|] eqn:M; cbn [bind fst snd] in H; [|discriminate]. destruct b1.
  - injection H as <-. cbn [t_result t_used active active_n]. unfold active, active_n. cbn. splits; auto; [rewrite P3; now apply widths_tail|]. apply list_captures in M; [|exact P2]. rewrite P1 in M. apply captured_tail in M. destruct M as (v & x & -> & X & C). exists [], v, x. auto.
  - destruct (t_sec t) as [[l2 n2]|]; [|discriminate]. cbn [fst snd] in *. destruct P4 as (-> & Q1 & Q2 & ->). destruct (match_list re_match uf stack l2 n (t_caps2 t)) as [[b2 c2]|] eqn:M2; cbn [bind fst snd] in H; [|discriminate]. injection H as -> <-. unfold active, active_n. cbn [t_result t_used t_sec t_caps2 fst snd]. splits; auto; [rewrite widths_any by exact D; now apply widths_tail|].
    apply list_captures in M2; [|exact Q2]. rewrite Q1 in M2. apply (captured_all_app [anyp]) in M2. destruct M2 as (u & v & -> & _ & C). replace (0 + widths [anyp]) with 0 in C by (rewrite widths_any by exact D; reflexivity). apply captured_tail in C. destruct C as (v1 & x & -> & X & C). exists u, v1, x. splits; auto. discriminate.
Qed.
(* ---- expand ---- *)
Lemma to_string_digits' : forall n, digits (to_string n) /\ to_string n <> [].
Proof using . clear re_count re_match uf stack.
  intro n. split; [|destruct (to_string_cons n) as (x & s & -> & _); discriminate]. unfold digits. apply Forall_forall. intros c I. pose proof (to_string_digits n) as F. rewrite forallb_forall in F. apply isDigit_iff, F, I.
Qed.
Lemma to_string_decimal : forall n, n < two64 -> decimal (to_string n) = n.
Proof using . clear re_count re_match uf stack.
  intros n L. destruct (to_string_digits' n) as [D Ne]. pose proof (stoul_digits1 _ D Ne) as E. unfold stoul in E. rewrite (stoull_to_string n L) in E. destruct (decimal (to_string n) <? two64); [|discriminate]. injection E as E. now symmetry.
Qed.
Lemma cast_to_string : forall n, n < two64 -> cast_size (to_string n) = Ok n.
Proof using . clear re_count re_match uf stack.
  intros n L. unfold cast_size. destruct (to_string_digits' n) as [D Ne]. pose proof (read_digits_val (to_string n) [] 0 D I) as E. rewrite app_nil_r in E. rewrite E. cbn [fst]. fold (decimal (to_string n)). rewrite to_string_decimal by exact L. destruct (N.ltb_spec n two64); [reflexivity|lia].
Qed.
Definition xstart (s : bytes) : Prop := match s with [] => True | c :: _ => isDigit c = false end.
Lemma items_start : forall items, xstart (concat (map item_text items)).
Proof using . clear re_count re_match uf stack. intros [|[i|u] items]; exact I || reflexivity. Qed.
Lemma getItem_ref : forall i s, xstart s -> getItem (item_text (TRef i) ++ s) = Ok (XRef (to_string i), s).
Proof using . clear re_count re_match uf stack.
  intros i s X. cbn [item_text app getItem]. change (beqb cBack cBack) with true. cbn iota. destruct (to_string_digits' i) as [D Ne]. rewrite span_digits_complete; auto. cbn [fst snd]. destruct (to_string i); [contradiction|reflexivity].
Qed.
Lemma getItem_lit : forall u s, balanced cLt cGt u -> getItem (item_text (TLit u) ++ s) = match s with [] => Err ERuntime | _ => Ok (XLit u, s) end.
Proof using . clear re_count re_match uf stack.
  intros u s B. cbn [item_text angled app getItem]. change (beqb cLt cBack) with false. change (beqb cLt cLt) with true. cbn iota. rewrite <- app_assoc. cbn [app]. assert (Sp : span_bal cLt cGt 1 (u ++ cGt :: s) = Some (u ++ [cGt], s)) by (apply span_bal_iff; [discriminate|eauto]). rewrite Sp. destruct s; [reflexivity|]. now rewrite removelast_last.
Qed.
Lemma item_value_ref : forall t n w c i v, t_result t = n -> active_n t = w -> (forall j, j < w -> active t j = c j) -> item_says n w c (TRef i) v -> item_value t (XRef (to_string i)) = Ok v.
Proof using . clear re_count re_match uf stack.
  intros t n w c i v En Ew Ec H. cbn [item_says] in H. assert (L : i < two64) by (destruct H as [[-> _]|(_ & L & _)]; [reflexivity|exact L]). cbn [item_value]. rewrite (cast_to_string i L). cbn [bind]. destruct H as [[-> ->]|(B & _ & ->)].
  - change (0 =? 0) with true. cbn iota. now rewrite En.
  - destruct (N.eqb_spec i 0); [lia|]. unfold active_n in Ew. rewrite Ew. destruct (N.leb_spec i w); [|lia]. f_equal. change (active t (i - 1) = c (i - 1)). apply Ec. lia.
Qed.
Lemma expand_loop_items : forall t n w c, t_result t = n -> active_n t = w -> (forall j, j < w -> active t j = c j) -> forall items vs, Forall2 (item_says n w c) items vs ->
  forall fuel s, (length (concat (map item_text items)) < fuel)%nat -> (s <> [] \/ exists a i, items = a ++ [TRef i]) -> xstart s -> expand_loop fuel (concat (map item_text items) ++ s) t = let! y := expand_loop (fuel - length items) s t in Ok (concat vs ++ y).
Proof using . clear re_count re_match uf stack.
  intros t n w c En Ew Ec. induction 1 as [|x v items vs Hx Hs IH]; intros fuel s L Last X; cbn [map concat app length].
  - rewrite Nat.sub_0_r. destruct (expand_loop fuel s t); reflexivity.
  - destruct fuel as [|fuel]; [lia|]. rewrite <- app_assoc. cbn [map concat] in L. rewrite app_length in L.
    assert (L0 : (0 < length (item_text x))%nat) by (destruct x; cbn [item_text angled length]; lia).
    assert (X1 : xstart (concat (map item_text items) ++ s)). { destruct items as [|y items]; [exact X|]. pose proof (items_start (y :: items)) as Y. cbn [map concat] in *. destruct y; exact Y || reflexivity. }
    assert (Last1 : s <> [] \/ (exists a i, items = a ++ [TRef i]) \/ items = []). { destruct Last as [Ls|(a & i & Ea)]; auto. destruct a as [|a0 a]; [injection Ea as _ Ea; auto|]. injection Ea as _ Ea. right. left. eauto. }
    assert (G : exists g, getItem (item_text x ++ concat (map item_text items) ++ s) = Ok (g, concat (map item_text items) ++ s) /\ item_value t g = Ok v).
    { destruct x as [i|u].
      - eexists. split; [apply getItem_ref; exact X1|]. eapply item_value_ref; eauto.
      - destruct Hx as (Bu & m & Em & ->). rewrite getItem_lit by exact Bu. assert (Ne : concat (map item_text items) ++ s <> []).
        { destruct Last as [Ls|(a & i & Ea)]; [destruct (concat (map item_text items)); [exact Ls|discriminate]|]. destruct a as [|a0 a]; [discriminate|]. injection Ea as _ ->. rewrite map_app, concat_app. cbn [map concat item_text]. destruct (concat (map item_text a)); discriminate. }
        destruct (concat (map item_text items) ++ s) eqn:E; [contradiction|]. eexists. split; [reflexivity|]. cbn [item_value]. rewrite Em. reflexivity. }
    destruct G as (g & G1 & G2). cbn [expand_loop]. destruct (item_text x ++ concat (map item_text items) ++ s) as [|z zs] eqn:Ez; [apply (f_equal (@length byte)) in Ez; rewrite app_length in Ez; cbn in Ez; lia|]. rewrite <- Ez in *. clear Ez. rewrite G1. cbn [bind fst snd]. rewrite G2. cbn [bind].
    assert (IH1 : expand_loop fuel (concat (map item_text items) ++ s) t = let! y := expand_loop (fuel - length items) s t in Ok (concat vs ++ y)).
    { destruct Last1 as [Ls|[Li|Ei]]; [apply IH; auto; lia|apply IH; auto; lia|]. subst items. inversion Hs; subst. cbn [map concat app length]. rewrite Nat.sub_0_r. destruct (expand_loop fuel s t); reflexivity. }
    rewrite IH1. replace (S fuel - S (length items))%nat with (fuel - length items)%nat by lia. destruct (expand_loop (fuel - length items) s t); cbn [bind]; [|reflexivity]. now rewrite app_assoc.
Qed.
Lemma items_len : forall items, (length items <= length (concat (map item_text items)))%nat.
Proof using . clear re_count re_match uf stack. induction items as [|x items IH]; [reflexivity|]. cbn [map concat length]. rewrite app_length. destruct x; cbn [item_text angled length]; lia. Qed.
Lemma expand_items : forall t n w c items vs, t_result t = n -> active_n t = w -> (forall j, j < w -> active t j = c j) -> Forall2 (item_says n w c) items vs -> (exists a i, items = a ++ [TRef i]) ->
  rt_expand (concat (map item_text items)) t = Ok (concat vs).
Proof using . clear re_count re_match uf stack.
  intros t n w c items vs En Ew Ec H Last. unfold rt_expand. cbv zeta. assert (Ne : concat (map item_text items) <> []). { destruct Last as (a & i & ->). rewrite map_app, concat_app. cbn. destruct (concat (map item_text a)); discriminate. }
  destruct (concat (map item_text items)) as [|z zs] eqn:E; [contradiction|]. rewrite <- E. pose proof (expand_loop_items t n w c En Ew Ec items vs H (S (length (concat (map item_text items)))) [] ltac:(lia) (or_intror Last) I) as X. rewrite app_nil_r in X. rewrite X. pose proof (items_len items). destruct (S (length (concat (map item_text items))) - length items)%nat eqn:F; [lia|]. cbn [expand_loop bind]. now rewrite app_nil_r.
Qed.
Lemma expand_literal_last : forall t n w c items vs u, t_result t = n -> active_n t = w -> (forall j, j < w -> active t j = c j) -> Forall2 (item_says n w c) items vs -> balanced cLt cGt u ->
  rt_expand (concat (map item_text items) ++ angled u) t = Err ERuntime.
Proof using . clear re_count re_match uf stack.
  intros t n w c items vs u En Ew Ec H B. unfold rt_expand. cbv zeta. destruct (concat (map item_text items) ++ angled u) as [|z zs] eqn:E; [destruct (concat (map item_text items)); discriminate|]. rewrite <- E.
  rewrite (expand_loop_items t n w c En Ew Ec items vs H); [|rewrite app_length; lia|left; discriminate|reflexivity]. pose proof (items_len items) as L. rewrite app_length. destruct (S (length (concat (map item_text items)) + length (angled u)) - length items)%nat as [|f] eqn:F; [lia|]. cbn [expand_loop]. change (angled u) with (item_text (TLit u)). pose proof (getItem_lit u [] B) as G. rewrite app_nil_r in G. rewrite G. reflexivity.
Qed.
End T.

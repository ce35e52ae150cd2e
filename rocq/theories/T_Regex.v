(* C58, C68, C69: NDN regular expressions *)
From Coq Require Import List Lia ZifyBool ZifyNat ZifyN String.
From Verif Require Import Base BaseLemmas M_Tlv M_Str M_Name S_Name P_Str P_NameUri M_Regex S_Regex P_Regex P_Regex2 P_Regex3 P_Regex4 P_Regex5.
Import ListNotations.
Open Scope list_scope.
Open Scope N_scope.

(* A small regular expression engine for the examples: .* and literal strings *)
Definition inmeta (c : byte) : bool := existsb (fun x => beqb x c) meta.
Fixpoint strip (e : bytes) : option bytes :=
  match e with
  | [] => Some []
  | c :: e' => if beqb c cBack then match e' with d :: e2 => if inmeta d then option_map (cons d) (strip e2) else None | [] => None end
               else if inmeta c then None else option_map (cons c) (strip e')
  end.
Definition toy_count (e : bytes) : option N := if bytes_eqb e (str ".*") then Some 0 else match strip e with Some _ => Some 0 | None => None end.
Definition toy_match (e s : bytes) : option (list bytes) :=
  if bytes_eqb e (str ".*") then Some [] else match strip e with Some s' => if bytes_eqb s' s then Some [] else None | None => None end.
Lemma inmeta_iff : forall c, inmeta c = true <-> In c meta.
Proof. intro c. unfold inmeta. rewrite existsb_exists. split; [intros (x & I & E); apply beqb_eq in E; now subst|intro I; exists c; split; auto; apply beqb_refl]. Qed.
Lemma strip_literal : forall e s, literal e s -> strip e = Some s.
Proof.
  induction 1 as [|c e s N _ IH|c e s M _ IH]; [reflexivity| |]; cbn [strip].
  - destruct (beqb c cBack) eqn:E; [apply beqb_eq in E; subst; exfalso; apply N; cbn; auto|]. destruct (inmeta c) eqn:I; [apply inmeta_iff in I; contradiction|]. now rewrite IH.
  - change (beqb cBack cBack) with true. cbn iota. apply inmeta_iff in M. rewrite M, IH. reflexivity.
Qed.
Example toy_dot_star : forall uf, dot_star toy_count toy_match uf.
Proof. intro uf. split; [reflexivity|]. intro c. discriminate. Qed.
Example toy_literals : literals toy_count toy_match.
Proof.
  intros e s Ne L. unfold toy_count, toy_match. assert (X : bytes_eqb e (str ".*") = false). { destruct (bytes_eqb e (str ".*")) eqn:E; [|reflexivity]. apply bytes_eqb_eq in E. subst e. apply strip_literal in L. discriminate L. }
  rewrite X, (strip_literal _ _ L). split; [discriminate|]. intro t. destruct (bytes_eqb s t) eqn:E; [apply bytes_eqb_eq in E; split; [now intros _|discriminate]|]. split; [intro Q; now contradiction Q|]. intros ->. now rewrite bytes_eqb_refl in E.
Qed.
Definition g (s : String.string) : comp := comp_ofString (str s).
Definition xs : bytes := str "<a>(<b>+)*[^<c><d>]".
Definition xps : list pat := [PRep (PSet true [str "a"]) 1 (Some 1); PRep (PGrp [PRep (PSet true [str "b"]) 1 None]) 0 None; PRep (PSet false [str "c"; str "d"]) 1 (Some 1)].
Example xs_spelled : spelled xps xs.
Proof.
  destruct (rx_compile toy_count xs) as [[l n]|e] eqn:E; [|vm_compute in E; discriminate E]. destruct (rx_list_sound toy_count _ _ _ _ _ E) as (S1 & _). vm_compute in E. injection E as <- _. exact S1.
Qed.
Lemma set_not_empty : forall A uf l i, ~ lang A uf (PSet i l) [].
Proof. intros A uf l i. cbn. destruct i; intros (c & E & _); discriminate. Qed.
Example xps_solid : forall A uf, Forall (solid A uf) xps.
Proof.
  intros A uf. assert (One : forall i l mn mx, solid A uf (PRep (PSet i l) mn mx)) by (intros; split; [exact I|apply set_not_empty]). constructor; [apply One|]. constructor; [|constructor; [apply One|constructor]].
  split; [split; [apply One|exact I]|]. intro H. cbn [lang map in_sequence] in H. destruct H as (u & v & E & (ws & -> & F & M & _) & _). destruct ws as [|w ws]; [cbn in M; lia|]. inversion F as [|? ? (c & -> & _)]; subst. discriminate E.
Qed.

(* ===== C58: a constructor call succeeds exactly for the texts of the grammar (whose component expressions std::regex accepts) ===== *)
Theorem C58_syntax : forall re_count s x t, rt_new re_count s x = Ok t ->
  exists caret dollar b ps, s = top_text caret b dollar /\ spelled ps b /\ Forall (valid re_count) (flat_map exprs ps).
Proof.
  intros re_count s x t H. destruct (new_parse re_count s x t H) as (caret & dollar & b & ps & -> & Sp). exists caret, dollar, b, ps. splits; auto. now destruct (new_inv re_count caret dollar ps b x t Sp H) as (_ & _ & V).
Qed.
Print Assumptions C58_syntax.
Theorem C58_accepted : forall re_count caret dollar b ps x, spelled ps b -> top_text caret b dollar <> [] -> Forall (valid re_count) (flat_map exprs ps) -> valid re_count (str ".*") ->
  exists t, rt_new re_count (top_text caret b dollar) x = Ok t.
Proof. intros re_count caret dollar b ps x Sp Ne V D. now apply new_ok with (ps := ps). Qed.
Print Assumptions C58_accepted.
(* every other non-empty text is rejected with RegexMatcher::Error *)
Theorem C58_error : forall re_count s x e, s <> [] -> rt_new re_count s x = Err e -> e = ERuntime.
Proof. intros re_count s x e Ne H. pose proof (rt_new_fine re_count s x Ne) as F. rewrite H in F. exact F. Qed.
Print Assumptions C58_error.
(* the meaning of a text is unambiguous *)
Theorem C58_unambiguous : forall ps qs s, spelled ps s -> spelled qs s -> ps = qs.
Proof. exact spelled_unique. Qed.
Print Assumptions C58_unambiguous.
Example C58_syntax_ex : (exists t, rt_new toy_count (top_text true xs true) [] = Ok t) /\ rt_new toy_count (str "^<a>(<b>+*[^<c><d>]$") [] = Err ERuntime /\ rt_new toy_count (str "<a>{3,2}") [] = Err ERuntime.
Proof.
  splits; [|vm_compute; reflexivity|vm_compute; reflexivity]. apply (C58_accepted toy_count true true xs xps); [apply xs_spelled|discriminate| |discriminate]. apply Forall_forall. intros e I. cbn in I. decompose [or] I; subst; try contradiction; discriminate.
Qed.

(* ===== C58: a match is never reported for a name outside the language, whatever was matched before ===== *)
Theorem C58_sound : forall re_count re_match uf stack caret dollar b ps x t t1 n t2,
  spelled ps b -> rt_new re_count (top_text caret b dollar) x = Ok t -> used re_match uf stack t t1 -> rt_match re_match uf stack n t1 = Ok (true, t2) -> lang_top (acc re_match) uf caret dollar ps n.
Proof.
  intros re_count re_match uf stack caret dollar b ps x t t1 n t2 Sp N U M. destruct (new_inv re_count caret dollar ps b x t Sp N) as (C & _). apply (compiled_same _ _ _ _ _ _ (used_same _ _ _ _ _ U)) in C. eapply match_sound; eauto.
Qed.
Print Assumptions C58_sound.
(* ===== C58: match() terminates and decides the language, if no pattern that denotes the empty name is repeated and the stack is deeper than the name ===== *)
Theorem C58_exact : forall re_count re_match uf stack caret dollar b ps x t t1 n,
  dot_star re_count re_match uf -> spelled ps b -> Forall (solid (acc re_match) uf) ps -> rt_new re_count (top_text caret b dollar) x = Ok t -> used re_match uf stack t t1 ->
  (List.length n < stack)%nat -> nlen n < two64 - 1 -> exists r t2, rt_match re_match uf stack n t1 = Ok (r, t2) /\ (r = true <-> lang_top (acc re_match) uf caret dollar ps n).
Proof.
  intros re_count re_match uf stack caret dollar b ps x t t1 n [_ D] Sp So N U Ls Ln. destruct (new_inv re_count caret dollar ps b x t Sp N) as (C & _). apply (compiled_same _ _ _ _ _ _ (used_same _ _ _ _ _ U)) in C. eapply match_exact; eauto.
Qed.
Print Assumptions C58_exact.
Definition matched (stack : nat) (s : bytes) (n : list comp) : res bool := let! t := rt_new toy_count s [] in let! r := rt_match toy_match ALTERNATE stack n t in Ok (fst r).
Example C58_exact_ex : matched 10 (top_text true xs true) [g "a"; g "b"; g "b"; g "z"] = Ok true /\ matched 10 (top_text true xs true) [g "a"; g "b"; g "d"] = Ok false /\ matched 10 (top_text false xs true) [g "q"; g "a"; g "z"] = Ok true /\ matched 10 (top_text true xs false) [g "a"; g "z"; g "d"] = Ok true.
Proof. splits; vm_compute; reflexivity. Qed.
(* without the restriction the claim is false: a starred group of a starred component, on a name that does not match, recurses without end *)
Definition deep : bytes := str "(<a>*)*".
Definition deep_pats : list pat := [PRep (PGrp [PRep (PSet true [str "a"]) 0 None]) 0 None].
Lemma deep_spelled : spelled deep_pats deep.
Proof.
  destruct (rx_compile toy_count deep) as [[l n]|e] eqn:E; [|vm_compute in E; discriminate E]. destruct (rx_list_sound toy_count _ _ _ _ _ E) as (S1 & _). vm_compute in E. injection E as <- _. exact S1.
Qed.
Definition deep_grp : rx := RGrp 0 [RRep (RSet true [mkRC (str "a") 1 0]) 0 MAX_REP].
Lemma deep_loop : forall stack st k c, (0 < stack)%nat -> k + N.of_nat st < two64 - 1 -> rrec st (match_rx toy_match ALTERNATE stack deep_grp) 0 MAX_REP k [g "b"] c = Err EFuel.
Proof.
  intros stack st k c L. destruct stack as [|stack]; [lia|]. assert (G1 : forall c, exists c1, match_rx toy_match ALTERNATE (S stack) deep_grp [g "b"] c = Ok (false, c1)) by (intro c0; eexists; vm_compute; reflexivity). assert (G0 : forall c, exists c1, match_rx toy_match ALTERNATE (S stack) deep_grp [] c = Ok (true, c1)) by (intro c0; eexists; vm_compute; reflexivity).
  revert k c. induction st as [|st IH]; intros k c K; [reflexivity|]. cbn [rrec]. destruct (N.leb_spec MAX_REP k) as [Q|Q]; [unfold MAX_REP in Q; lia|]. cbn [List.length tries firstn skipn]. destruct (G1 c) as (c1 & ->). cbn [bind fst snd]. destruct (G0 c1) as (c2 & ->). cbn [bind fst snd]. rewrite IH by lia. reflexivity.
Qed.
Theorem C58_repeat_refuted : exists b ps t n, spelled ps b /\ rt_new toy_count (top_text true b true) [] = Ok t /\ nlen n = 1 /\
  forall stack, N.of_nat stack < two64 - 1 -> rt_match toy_match ALTERNATE stack n t = Err EFuel.
Proof.
  exists deep, deep_pats, (mkRT [RRep deep_grp 0 MAX_REP] 1 None [] (fun _ => []) (fun _ => []) [] false), [g "b"]. splits; [apply deep_spelled|vm_compute; reflexivity|reflexivity|]. intros stack L. unfold rt_match, match_list. cbn [t_prim map brec List.length tries firstn]. cbn [match_rx]. change ((0 =? 0) && false) with false. cbn iota.
  destruct stack as [|stack]; [reflexivity|]. assert (D : forall c, rrec (S stack) (match_rx toy_match ALTERNATE (S stack) deep_grp) 0 MAX_REP 0 [g "b"] c = Err EFuel) by (intro c; apply deep_loop; lia). cbn [firstn]. rewrite D. reflexivity.
Qed.
Print Assumptions C58_repeat_refuted.
(* ... and ^(<a>?){2}$ rejects the empty name *)
Definition twice : bytes := str "(<a>?){2}".
Definition twice_pats : list pat := [PRep (PGrp [PRep (PSet true [str "a"]) 0 (Some 1)]) 2 (Some 2)].
Lemma twice_spelled : spelled twice_pats twice.
Proof.
  destruct (rx_compile toy_count twice) as [[l n]|e] eqn:E; [|vm_compute in E; discriminate E]. destruct (rx_list_sound toy_count _ _ _ _ _ E) as (S1 & _). vm_compute in E. injection E as <- _. exact S1.
Qed.
Theorem C58_empty_refuted : exists b ps t, spelled ps b /\ rt_new toy_count (top_text true b true) [] = Ok t /\ lang_top (acc toy_match) ALTERNATE true true ps [] /\
  forall stack, (0 < stack)%nat -> exists t2, rt_match toy_match ALTERNATE stack [] t = Ok (false, t2).
Proof.
  exists twice, twice_pats. destruct (rt_new toy_count (top_text true twice true) []) as [t|e] eqn:E; [|vm_compute in E; discriminate E]. exists t. splits; [apply twice_spelled|reflexivity| |].
  - exists [], [], []. splits; auto. assert (Z : lang (acc toy_match) ALTERNATE (PRep (PSet true [str "a"]) 0 (Some 1)) []) by (exists []; splits; auto; cbn; lia). exists [], []. splits; auto; [|reflexivity]. exists [[]; []]. splits; auto; [|cbn; lia|cbn; lia]. assert (Q : lang (acc toy_match) ALTERNATE (PGrp [PRep (PSet true [str "a"]) 0 (Some 1)]) []) by (exists [], []; splits; auto; reflexivity). constructor; [exact Q|constructor; [exact Q|constructor]].
  - intros stack L. destruct stack as [|stack]; [lia|]. vm_compute in E. injection E as <-. eexists. vm_compute. reflexivity.
Qed.
Print Assumptions C58_empty_refuted.
(* an empty expression is not rejected: expr[expr.size() - 1] is read *)
Theorem C58_blank_refuted : forall re_count x, rt_new re_count [] x = Err EUb.
Proof. reflexivity. Qed.
Print Assumptions C58_blank_refuted.

(* ===== C68: after a successful match, \0 is the name and \1, \2, ... are what the groups captured in one reading of the name ===== *)
Theorem C68_captures : forall re_count re_match uf stack caret dollar b ps x t t1 n t2,
  dot_star re_count re_match uf -> spelled ps b -> rt_new re_count (top_text caret b dollar) x = Ok t -> used re_match uf stack t t1 -> rt_match re_match uf stack n t1 = Ok (true, t2) ->
  exists c u v y, n = u ++ v ++ y /\ (caret = true -> u = []) /\ (dollar = true -> y = []) /\ captured_all (acc re_match) uf (marks_of re_count) ps 0 v c /\
    forall items vs, Forall2 (item_says n (sum (map (width (marks_of re_count)) ps)) c) items vs -> (exists a i, items = a ++ [TRef i]) -> rt_expand (List.concat (map item_text items)) t2 = Ok (List.concat vs).
Proof.
  intros re_count re_match uf stack caret dollar b ps x t t1 n t2 [D _] Sp N U M. destruct (new_inv re_count caret dollar ps b x t Sp N) as (C & _). apply (compiled_same _ _ _ _ _ _ (used_same _ _ _ _ _ U)) in C. destruct (match_captures re_count re_match uf stack t1 caret dollar ps n t2 D C M) as (R & W & u & v & y & E & Eu & Ey & Ca).
  exists (active t2), u, v, y. splits; auto. intros items vs F L. eapply expand_items; eauto.
Qed.
Print Assumptions C68_captures.
(* the template given to the constructor is used when expand() is called without one *)
Theorem C68_default : forall re_count re_match uf stack s x t t1, rt_new re_count s x = Ok t -> used re_match uf stack t t1 -> rt_expand [] t1 = rt_expand x t1.
Proof.
  intros re_count re_match uf stack s x t t1 N U. destruct (new_parse _ _ _ _ N) as (caret & dollar & b & ps & -> & Sp). destruct (new_inv _ _ _ _ _ _ _ Sp N) as (_ & E & _). destruct (used_same _ _ _ _ _ U) as (_ & _ & _ & Ex). unfold rt_expand. rewrite Ex, E. destruct x; reflexivity.
Qed.
Print Assumptions C68_default.
(* a template that ends in a literal <uri> is always refused *)
Theorem C68_literal_refuted : forall re_count re_match uf stack caret dollar b ps x t t1 n t2 items vs i,
  dot_star re_count re_match uf -> spelled ps b -> rt_new re_count (top_text caret b dollar) x = Ok t -> used re_match uf stack t t1 -> rt_match re_match uf stack n t1 = Ok (true, t2) ->
  Forall2 (item_says n 0 (fun _ => [])) items vs -> balanced cLt cGt i -> rt_expand (List.concat (map item_text items) ++ angled i) t2 = Err ERuntime.
Proof.
  intros re_count re_match uf stack caret dollar b ps x t t1 n t2 items vs i [D _] Sp N U M F B. destruct (new_inv re_count caret dollar ps b x t Sp N) as (C & _). apply (compiled_same _ _ _ _ _ _ (used_same _ _ _ _ _ U)) in C. destruct (match_captures re_count re_match uf stack t1 caret dollar ps n t2 D C M) as (R & W & _).
  eapply (expand_literal_last t2 n (active_n t2) (active t2) items vs); auto. clear - F. induction F as [|a v items vs H _ IH]; constructor; auto. destruct a as [j|u]; cbn in *; [|exact H]. destruct H as [H|H]; [auto|lia].
Qed.
Print Assumptions C68_literal_refuted.
Definition expanded (stack : nat) (s : bytes) (ns : list (list comp)) (x : bytes) : res (list comp) :=
  let! t := rt_new toy_count s [] in let! t1 := fold_left (fun r n => let! t := r in let! y := rt_match toy_match ALTERNATE stack n t in Ok (snd y)) ns (Ok t) in rt_expand x t1.
Example C68_captures_ex : expanded 10 (str "^<a>((<b>+)<c>)*(<z>)") [[g "a"; g "b"; g "c"; g "b"; g "b"; g "c"; g "z"; g "y"]] (str "\2<x/y>\3\1\0") =
  Ok ([g "b"; g "b"] ++ [g "x"; g "y"] ++ [g "z"] ++ [g "b"; g "b"; g "c"] ++ [g "a"; g "b"; g "c"; g "b"; g "b"; g "c"; g "z"; g "y"]).
Proof. vm_compute. reflexivity. Qed.
Definition cap_text : bytes := str "<a>((<b>+)<c>)*(<z>)".
Example C68_captures_hyp : exists ps t t2, spelled ps cap_text /\ rt_new toy_count (top_text true cap_text true) [] = Ok t /\ used toy_match ALTERNATE 10 t t /\ rt_match toy_match ALTERNATE 10 [g "a"; g "b"; g "c"; g "z"] t = Ok (true, t2).
Proof.
  destruct (rx_compile toy_count cap_text) as [[l n]|e] eqn:E; [|vm_compute in E; discriminate E]. destruct (rx_list_sound toy_count _ _ _ _ _ E) as (S1 & _). destruct (rt_new toy_count (top_text true cap_text true) []) as [t|] eqn:N; [|vm_compute in N; discriminate N]. exists (map erase l), t. vm_compute in N. injection N as <-. eexists. splits; [exact S1|reflexivity|constructor|vm_compute; reflexivity].
Qed.
(* a group that took no part in the match may hold what an abandoned attempt, or an earlier match, captured: it is not empty *)
Theorem C68_stale_refuted : (exists t t2, rt_new toy_count (str "^(<a>)*<a>$") [] = Ok t /\ rt_match toy_match ALTERNATE 10 [g "a"] t = Ok (true, t2) /\ rt_expand (str "\1") t2 = Ok [g "a"]) /\
  exists t t1 t2 b, rt_new toy_count (str "^(<a>)*$") [] = Ok t /\ rt_match toy_match ALTERNATE 10 [g "a"] t = Ok (b, t1) /\ rt_match toy_match ALTERNATE 10 [] t1 = Ok (true, t2) /\ rt_expand (str "\1") t2 <> Ok [].
Proof.
  split.
  - destruct (rt_new toy_count (str "^(<a>)*<a>$") []) as [t|] eqn:N; [|vm_compute in N; discriminate N]. exists t. vm_compute in N. injection N as <-. eexists. splits; [reflexivity|vm_compute; reflexivity|vm_compute; reflexivity].
  - destruct (rt_new toy_count (str "^(<a>)*$") []) as [t|] eqn:N; [|vm_compute in N; discriminate N]. exists t. vm_compute in N. injection N as <-. eexists _, _, _. splits; [reflexivity|vm_compute; reflexivity|vm_compute; reflexivity|vm_compute; discriminate].
Qed.
Print Assumptions C68_stale_refuted.

(* ===== C69: the expression made from a name matches exactly the names with that prefix, or that name only ===== *)
Definition distinct_uri (uf : uri_format) (c : comp) : Prop := valid_key (ckey c) /\ (uf = ALTERNATE -> alt_ok (ckey c)).
Theorem C69_fromName : forall re_count re_match uf stack n anchor, literals re_count re_match -> dot_star re_count re_match uf -> Forall (distinct_uri uf) n ->
  exists t, fromName re_count uf n anchor = Ok t /\ forall t1 m, used re_match uf stack t t1 -> Forall (distinct_uri uf) m -> (List.length m < stack)%nat -> nlen m < two64 - 1 ->
    exists r t2, rt_match re_match uf stack m t1 = Ok (r, t2) /\ (r = true <-> if anchor then map ckey m = map ckey n else exists z, map ckey m = map ckey n ++ z).
Proof.
  intros re_count re_match uf stack n anchor Hl Hd Fn. destruct (fromName_exact re_count re_match uf stack Hl Hd n anchor) as (t & E & H). exists t. split; [exact E|]. intros t1 m U Fm L1 L2. destruct (H t1 m U L1 L2) as (r & t2 & M & S0). exists r, t2. split; [exact M|]. rewrite S0. clear - Fn Fm.
  assert (K : forall v, Forall (distinct_uri uf) v -> (Forall2 (fun c d => comp_toUri uf c = comp_toUri uf d) n v <-> map ckey v = map ckey n)).
  { clear Fm m. induction Fn as [|c n [Hc Ac] Fn IH]; intros v Fv.
    - split; [intro X; inversion X; reflexivity|]. destruct v; [constructor|discriminate].
    - split.
      + intro X. inversion X as [|? d ? v' Ed Fd]; subst. inversion Fv as [|? ? [Hd Ad] Fv']; subst. cbn [map]. f_equal; [symmetry; apply (proj1 (uri_same uf c d Hc Hd (fun e => conj (Ac e) (Ad e))) Ed)|]. now apply IH.
      + destruct v as [|d v]; [discriminate|]. inversion Fv as [|? ? [Hd Ad] Fv']; subst. cbn [map]. intro X. injection X as X1 X2 X3. constructor; [apply uri_same; auto; unfold ckey; congruence|]. now apply IH. }
  split.
  - intros (v & x & -> & Ex & F). apply Forall_app in Fm. destruct Fm as [Fv _]. apply K in F; [|exact Fv]. destruct anchor; [rewrite (Ex eq_refl), app_nil_r; exact F|]. rewrite map_app, F. eauto.
  - destruct anchor.
    + intro X. exists m, []. rewrite app_nil_r. splits; auto. now apply K.
    + intros (z & X). exists (firstn (List.length n) m), (skipn (List.length n) m). splits; [now rewrite firstn_skipn|discriminate|]. apply K; [rewrite <- (firstn_skipn (List.length n) m) in Fm; apply Forall_app in Fm; tauto|]. rewrite <- firstn_map, X. rewrite <- (map_length ckey n), firstn_app, Nat.sub_diag, firstn_all. cbn. apply app_nil_r.
Qed.
Print Assumptions C69_fromName.
Definition named (n m : list comp) (anchor : bool) : res bool := let! t := fromName toy_count ALTERNATE n anchor in let! r := rt_match toy_match ALTERNATE 10 m t in Ok (fst r).
Example C69_fromName_ex : named [g "a.b"; g "+"] [g "a.b"; g "+"; g "c"] false = Ok true /\ named [g "a.b"; g "+"] [g "a.b"; g "+"; g "c"] true = Ok false /\ named [g "a.b"; g "+"] [g "axb"; g "+"] false = Ok false /\ Forall (distinct_uri ALTERNATE) [g "a.b"; g "+"].
Proof.
  splits; [vm_compute; reflexivity|vm_compute; reflexivity|vm_compute; reflexivity|]. assert (V : forall s, distinct_uri ALTERNATE (g s)). { intro s. split; [unfold valid_key, g, comp_ofString, ckey; cbn [fst snd c_type c_val]; splits; try (vm_compute; discriminate); intros [X|X]; discriminate X|]. intros _ X. unfold g, comp_ofString, ckey in X. cbn [fst c_type] in X. decompose [or] X; discriminate. } repeat constructor; apply V.
Qed.
(* without the condition on numeric components: the expression for /seg=1 also matches a segment component that encodes 1 in two bytes *)
Theorem C69_numeric_refuted : exists c d, ckey c <> ckey d /\ named [c] [d] true = Ok true.
Proof. exists (mkComp 50 None [x01]), (mkComp 50 None [x00; x01]). split; [discriminate|vm_compute; reflexivity]. Qed.
Print Assumptions C69_numeric_refuted.

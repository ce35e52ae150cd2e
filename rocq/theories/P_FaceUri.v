(* Proofs about FaceUri. *)
From Coq Require Import Lia ZifyBool ZifyNat ZifyN.
From Verif Require Import Base BaseLemmas M_Str P_Str M_FaceUri S_FaceUri.
Open Scope N_scope.
Open Scope list_scope.

(* ---- characters ---- *)
Lemma between_iff : forall lo hi c, between lo hi c = true <-> lo <= bn c <= hi.
Proof. intros. unfold between. lia. Qed.
Lemma code_eq : forall c x, beqb c x = true <-> bn c = bn x.
Proof. intros c x. unfold beqb. lia. Qed.
Lemma digit_iff : forall c, isDigitC c = true <-> digit c.
Proof. intro c. apply between_iff. Qed.
Lemma word_iff : forall c, isWordC c = true <-> word c.
Proof. intro c. unfold isWordC, word. rewrite !orb_true_iff, digit_iff, !between_iff, code_eq. change (bn x5f) with 95. tauto. Qed.
Lemma hexcolon_iff : forall c, isHexColon c = true <-> hexcolon c.
Proof. intro c. unfold isHexColon, hexcolon. rewrite !orb_true_iff, digit_iff, !between_iff, code_eq. change (bn uColon) with 58. tauto. Qed.
Lemma zone_iff : forall c, negb (isSpaceC c || beqb c uSlash || beqb c uColon) = true <-> zone c.
Proof.
  intro c. unfold isSpaceC, zone. rewrite negb_true_iff, !orb_false_iff. rewrite <- !not_true_iff_false, between_iff, code_eq, !beqb_eq. change (bn x20) with 32. tauto.
Qed.
Lemma some_iff : forall f (P : byte -> Prop) s, (forall c, f c = true <-> P c) -> (some_of f s = true <-> many P s).
Proof.
  intros f P s H. unfold some_of, many. assert (F : forallb f s = true <-> Forall P s).
  { rewrite forallb_forall, Forall_forall. split; intros G x I; apply H; auto. }
  destruct s; [split; [discriminate|intros (N & _); easy]|]. rewrite F. split; [intro; split; [discriminate|auto]|tauto].
Qed.
Lemma notin_fb : forall c s, forallb (fun x => negb (beqb x c)) s = true <-> ~ In c s.
Proof.
  intros c s. rewrite forallb_forall. split.
  - intros H I. specialize (H c I). now rewrite beqb_refl in H.
  - intros H x I. destruct (beqb x c) eqn:E; auto. apply beqb_eq in E. subst. contradiction.
Qed.
Lemma split_no : forall c s, split_at c s = None <-> ~ In c s.
Proof.
  intros c s. split.
  - intros H I. apply in_split in I as (a & b & ->). revert H. induction a as [|x a IH]; cbn [app split_at].
    + now rewrite beqb_refl.
    + destruct (beqb x c); [discriminate|]. destruct (split_at c (a ++ c :: b)) as [[? ?]|]; [discriminate|auto].
  - intro N. destruct (split_at c s) as [[a b]|] eqn:E; auto. apply split_at_inv in E as (-> & _). exfalso. apply N. apply in_or_app. right. now left.
Qed.
Lemma split_iff : forall c s a b, split_at c s = Some (a, b) <-> s = a ++ c :: b /\ ~ In c a.
Proof.
  intros c s a b. split.
  - intro H. apply split_at_inv in H as (-> & N). split; auto. now apply notin_fb.
  - intros (-> & N). apply split_at_app. now apply notin_fb.
Qed.
Lemma many_notin : forall (P : byte -> Prop) c s, many P s -> ~ P c -> ~ In c s.
Proof. intros P c s (_ & F) N I. rewrite Forall_forall in F. apply N. now apply F. Qed.
Ltac chr := unfold digit, word, hexcolon, zone; vm_compute; intuition congruence.
Lemma word_plus : ~ word uPlus. Proof. unfold word, digit. change (bn uPlus) with 43. lia. Qed.
Lemma word_colon : ~ word uColon. Proof. unfold word, digit. change (bn uColon) with 58. lia. Qed.
Lemma digit_colon : ~ digit uColon. Proof. unfold digit. change (bn uColon) with 58. lia. Qed.
Lemma digit_dot : ~ digit uDot. Proof. unfold digit. change (bn uDot) with 46. lia. Qed.
Lemma digit_slash : ~ digit uSlash. Proof. unfold digit. change (bn uSlash) with 47. lia. Qed.
Lemma digit_close : ~ digit uClose. Proof. unfold digit. change (bn uClose) with 93. lia. Qed.
Lemma digit_open : ~ digit uOpen. Proof. unfold digit. change (bn uOpen) with 91. lia. Qed.
Lemma hex_percent : ~ hexcolon uPercent. Proof. unfold hexcolon, digit. change (bn uPercent) with 37. lia. Qed.
Lemma hex_dot : ~ hexcolon uDot. Proof. unfold hexcolon, digit. change (bn uDot) with 46. lia. Qed.
(* ---- parts ---- *)
Lemma scheme_iff : forall s, scheme_ok s = true <-> scheme s.
Proof.
  intro s. unfold scheme_ok, scheme. destruct (split_at uPlus s) as [[a b]|] eqn:E.
  - apply split_iff in E as (-> & N). rewrite andb_true_iff, !(some_iff _ word) by exact word_iff. split.
    + intros (A & B). right. eauto.
    + intros [M|(a' & b' & E & A & B)].
      * exfalso. apply (many_notin _ _ _ M word_plus). apply in_or_app. right. now left.
      * assert (split_at uPlus (a ++ uPlus :: b) = Some (a', b')) by (apply split_iff; split; auto; exact (many_notin _ _ _ A word_plus)).
        assert (split_at uPlus (a ++ uPlus :: b) = Some (a, b)) by (apply split_iff; auto). rewrite H in H0. injection H0 as -> ->. auto.
  - apply split_no in E. rewrite (some_iff _ word) by exact word_iff. split; [auto|]. intros [M|(a & b & -> & _)]; auto. exfalso. apply E. apply in_or_app. right. now left.
Qed.
Lemma last_colon_some : forall s a b, last_colon s = Some (a, b) <-> s = a ++ uColon :: b /\ ~ In uColon b.
Proof.
  assert (No : forall s, last_colon s = None -> ~ In uColon s).
  { induction s as [|x s IH]; cbn [last_colon]; [auto|]. destruct (last_colon s) as [[u v]|] eqn:E; [discriminate|].
    destruct (beqb x uColon) eqn:B; [discriminate|]. intros _ [-> |I]; [now rewrite beqb_refl in B|]. now apply IH. }
  assert (Fw : forall s a b, last_colon s = Some (a, b) -> s = a ++ uColon :: b /\ ~ In uColon b).
  { induction s as [|x s IH]; intros a b H; cbn [last_colon] in H; [discriminate|]. destruct (last_colon s) as [[u v]|] eqn:E.
    - injection H as <- <-. destruct (IH _ _ eq_refl) as (-> & N). auto.
    - destruct (beqb x uColon) eqn:B; [|discriminate]. injection H as <- <-. apply beqb_eq in B. subst x. split; auto. }
  intros s a b. split; [apply Fw|]. intros (-> & N). destruct (last_colon (a ++ uColon :: b)) as [[u v]|] eqn:E.
  - apply Fw in E as (E & N'). revert u E. induction a as [|x a IH]; intros u E; destruct u as [|y u]; cbn [app] in E.
    + assert (b = v) by congruence. now subst.
    + assert (E2 : b = u ++ uColon :: v) by congruence. exfalso. apply N. rewrite E2. apply in_or_app. right. now left.
    + assert (E2 : a ++ uColon :: b = v) by congruence. exfalso. apply N'. rewrite <- E2. apply in_or_app. right. now left.
    + assert (E1 : x = y) by congruence. assert (E2 : a ++ uColon :: b = u ++ uColon :: v) by congruence. specialize (IH u E2). congruence.
  - exfalso. apply (No _ E). apply in_or_app. right. now left.
Qed.
Lemma last_colon_none : forall s, last_colon s = None <-> ~ In uColon s.
Proof.
  intro s. split.
  - intros H I. apply in_split in I as (a & b & ->). clear -H.
    assert (X : forall s, last_colon s = None -> ~ In uColon s).
    { induction s as [|x s IH]; cbn [last_colon]; [auto|]. destruct (last_colon s) as [[u v]|] eqn:E; [discriminate|].
      destruct (beqb x uColon) eqn:B; [discriminate|]. intros _ [-> |I]; [now rewrite beqb_refl in B|]. now apply IH. }
    apply (X _ H). apply in_or_app. right. now left.
  - intro N. destruct (last_colon s) as [[a b]|] eqn:E; auto. apply last_colon_some in E as (-> & _). exfalso. apply N. apply in_or_app. right. now left.
Qed.
Lemma strip_spec : forall a b p, strip_port a = (b, p) -> exists t, a = b ++ t /\ port t p.
Proof.
  intros a b p H. unfold strip_port in H. destruct (last_colon a) as [[u v]|] eqn:E.
  - apply last_colon_some in E as (-> & N). destruct (some_of isDigitC v) eqn:D; injection H as <- <-.
    + exists (uColon :: v). split; auto. right. split; auto. now apply (some_iff _ digit digit_iff) in D || (apply (some_iff isDigitC digit v digit_iff); exact D).
    + exists []. rewrite app_nil_r. split; auto. now left.
  - injection H as <- <-. exists []. rewrite app_nil_r. split; auto. now left.
Qed.
Lemma strip_app : forall b t p, port t p -> (~ In uColon b \/ exists b' x, b = b' ++ [x] /\ ~ digit x) -> strip_port (b ++ t) = (b, p).
Proof.
  intros b t p [(-> & ->)|(-> & M)] H; unfold strip_port.
  - rewrite app_nil_r. destruct (last_colon b) as [[u v]|] eqn:E; auto. destruct (some_of isDigitC v) eqn:D; auto. exfalso.
    apply last_colon_some in E as (-> & N). apply (some_iff isDigitC digit v digit_iff) in D. destruct H as [H|(b' & x & E & Nx)].
    + apply H. apply in_or_app. right. now left.
    + destruct D as (Nv & F). destruct (exists_last Nv) as (v' & y & ->). rewrite app_comm_cons, app_assoc in E. apply app_inj_tail in E as (_ & ->).
      apply Forall_app in F as (_ & F). inversion F; subst. contradiction.
  - assert (last_colon (b ++ uColon :: p) = Some (b, p)) as -> by (apply last_colon_some; split; auto; exact (many_notin _ _ _ M digit_colon)).
    apply (some_iff isDigitC digit p digit_iff) in M. now rewrite M.
Qed.
Lemma bracketed_iff : forall b i, bracketed b = Some i <-> b = uOpen :: i ++ [uClose].
Proof.
  intros b i. unfold bracketed. destruct b as [|x r]; [split; discriminate|]. destruct (beqb x uOpen) eqn:O.
  - apply beqb_eq in O. subst x. split.
    + intro H. destruct (rev r) as [|y q] eqn:E; [discriminate|]. destruct (beqb y uClose) eqn:C; [|discriminate]. apply beqb_eq in C. subst y. injection H as <-.
      rewrite <- (rev_involutive r), E. reflexivity.
    + intro H. injection H as ->. rewrite rev_app_distr. cbn [rev app]. rewrite beqb_refl. now rewrite rev_involutive.
  - split; [discriminate|]. intro H. injection H as -> _. now rewrite beqb_refl in O.
Qed.
Lemma link_iff : forall i, is_link_local i = true <-> exists x z, i = x ++ uPercent :: z /\ many hexcolon x /\ many zone z.
Proof.
  intro i. unfold is_link_local. destruct (split_at uPercent i) as [[x z]|] eqn:E.
  - apply split_iff in E as (-> & N). rewrite andb_true_iff, (some_iff _ hexcolon) by exact hexcolon_iff. rewrite (some_iff _ zone) by exact zone_iff. split.
    + intros (A & B). eauto.
    + intros (x' & z' & E & A & B). assert (split_at uPercent (x ++ uPercent :: z) = Some (x', z')) by (apply split_iff; split; auto; exact (many_notin _ _ _ A hex_percent)).
      assert (split_at uPercent (x ++ uPercent :: z) = Some (x, z)) by (apply split_iff; auto). rewrite H in H0. injection H0 as -> ->. auto.
  - apply split_no in E. split; [discriminate|]. intros (x & z & -> & _). exfalso. apply E. apply in_or_app. right. now left.
Qed.
Lemma v6_iff : forall i, is_link_local i || some_of isHexColon i = true <-> v6_host i.
Proof. intro i. rewrite orb_true_iff, link_iff, (some_iff isHexColon hexcolon i hexcolon_iff). unfold v6_host. tauto. Qed.
Lemma after_iff : forall p s q, after p s = Some q <-> s = p ++ q.
Proof.
  induction p as [|x p IH]; intros s q; cbn [after app]; [split; congruence|]. destruct s as [|y s]; [split; discriminate|]. destruct (beqb x y) eqn:B.
  - apply beqb_eq in B. subst y. rewrite IH. split; [intros ->; reflexivity|intro H; now injection H].
  - split; [discriminate|]. intro H. injection H as -> _. now rewrite beqb_refl in B.
Qed.
Lemma quad_step : forall n s, quad (S n) s = true <-> exists a b, s = a ++ uDot :: b /\ many digit a /\ quad n b = true.
Proof.
  intros n s. cbn [quad]. destruct (split_at uDot s) as [[a b]|] eqn:E.
  - apply split_iff in E as (-> & N). rewrite andb_true_iff, (some_iff isDigitC digit a digit_iff). split; [intros (A & B); eauto|].
    intros (a' & b' & E & A & B). assert (split_at uDot (a ++ uDot :: b) = Some (a', b')) by (apply split_iff; split; auto; exact (many_notin _ _ _ A digit_dot)).
    assert (split_at uDot (a ++ uDot :: b) = Some (a, b)) by (apply split_iff; auto). rewrite H in H0. injection H0 as -> ->. auto.
  - apply split_no in E. split; [discriminate|]. intros (a & b & -> & _). exfalso. apply E. apply in_or_app. right. now left.
Qed.
Lemma quad_iff : forall s, quad 3 s = true <-> quad_host s.
Proof.
  intro s. unfold quad_host. rewrite quad_step. split.
  - intros (a & s1 & -> & A & H). apply quad_step in H as (b & s2 & -> & B & H). apply quad_step in H as (c & d & -> & C & D). apply (some_iff isDigitC digit d digit_iff) in D. exists a, b, c, d. auto.
  - intros (a & b & c & d & -> & A & B & C & D). exists a, (b ++ uDot :: c ++ uDot :: d). splits; auto. apply quad_step. exists b, (c ++ uDot :: d). splits; auto. apply quad_step. exists c, d. splits; auto.
    now apply (some_iff isDigitC digit d digit_iff).
Qed.
Lemma plain_iff : forall b, some_of (fun c => negb (beqb c uColon)) b = true <-> many (fun c => c <> uColon) b.
Proof. intro b. apply some_iff. intro c. rewrite negb_true_iff, <- not_true_iff_false, beqb_eq. tauto. Qed.
Lemma quad_plain : forall h, quad_host h -> many (fun c => c <> uColon) h /\ ~ In uSlash h /\ ~ v6_host h /\ forall i, h <> uOpen :: i.
Proof.
  intros h (a & b & c & d & -> & A & B & C & D).
  assert (F : Forall (fun x => digit x \/ x = uDot) (a ++ uDot :: b ++ uDot :: c ++ uDot :: d)).
  { assert (Q : forall l, many digit l -> Forall (fun x => digit x \/ x = uDot) l) by (intros l (_ & G); eapply Forall_impl; [|exact G]; auto).
    repeat (apply Forall_app; split; [now apply Q|constructor; [now right|]]). now apply Q. }
  rewrite Forall_forall in F. splits.
  - split; [destruct a; discriminate|]. apply Forall_forall. intros x I ->. destruct (F _ I) as [G|G]; [now apply digit_colon|discriminate].
  - intro I. destruct (F _ I) as [G|G]; [now apply digit_slash|discriminate].
  - intros [M|(x & z & E & M & _)].
    + apply (many_notin _ _ _ M hex_dot). apply in_or_app. right. now left.
    + assert (I : In uPercent (a ++ uDot :: b ++ uDot :: c ++ uDot :: d)) by (rewrite E; apply in_or_app; right; now left). destruct (F _ I) as [G|G]; [unfold digit in G; change (bn uPercent) with 37 in G; lia|discriminate].
  - intros i E. assert (I : In uOpen (a ++ uDot :: b ++ uDot :: c ++ uDot :: d)) by (rewrite E; now left). destruct (F _ I) as [G|G]; [now apply digit_open|discriminate].
Qed.
(* ---- authority ---- *)
Lemma authority_iff : forall a v6 h p, parse_authority a = Some (v6, h, p) <-> authority a v6 h p.
Proof.
  intros a v6 h p. split.
  - intro H. unfold parse_authority in H. destruct a as [|x a0] eqn:Ea; [injection H as <- <- <-; constructor|]. rewrite <- Ea in *. clear x a0 Ea.
    destruct (strip_port a) as [b p0] eqn:S. apply strip_spec in S as (t & -> & P).
    assert (Plain : (forall i, b = uOpen :: i ++ [uClose] -> ~ v6_host i) -> (if some_of (fun c => negb (beqb c uColon)) b then Some (false, b, p0) else None) = Some (v6, h, p) -> authority (b ++ t) v6 h p).
    { intros N Q. destruct (some_of _ b) eqn:B; [|discriminate]. injection Q as <- <- <-. apply plain_iff in B. now apply au_plain. }
    destruct (bracketed b) as [i|] eqn:Br.
    + apply bracketed_iff in Br. subst b. pose proof (v6_iff i) as V.
      destruct (is_link_local i || some_of isHexColon i) eqn:B.
      * assert (Q : Some (true, i, p0) = Some (v6, h, p)) by (destruct (is_link_local i); [exact H|cbn [orb] in B; rewrite B in H; exact H]). injection Q as <- <- <-.
        replace ((uOpen :: i ++ [uClose]) ++ t) with (uOpen :: i ++ uClose :: t) by (cbn [app]; now rewrite <- app_assoc). apply au_v6; auto. now apply V.
      * apply orb_false_iff in B as (B1 & B2). rewrite B1, B2 in H.
        assert (N : forall i', uOpen :: i ++ [uClose] = uOpen :: i' ++ [uClose] -> ~ v6_host i').
        { intros i' E G. injection E as E. apply app_inj_tail in E as (-> & _). apply V in G. discriminate. }
        destruct (after (str "::ffff:") i) as [q|] eqn:Af; [|now apply Plain]. destruct (quad 3 q) eqn:Qd; [|now apply Plain]. injection H as <- <- <-.
        apply after_iff in Af. subst i. apply quad_iff in Qd.
        replace ((uOpen :: (str "::ffff:" ++ q) ++ [uClose]) ++ t) with (uOpen :: str "::ffff:" ++ q ++ uClose :: t) by (cbn [app]; now rewrite <- !app_assoc).
        now apply au_mapped.
    + apply Plain; auto. intros i E. apply bracketed_iff in E. congruence.
  - intro A. destruct A as [|h t p V P|h t p Q P|h t p M N P].
    + reflexivity.
    + replace (uOpen :: h ++ uClose :: t) with ((uOpen :: h ++ [uClose]) ++ t) by (cbn [app]; now rewrite <- app_assoc).
      unfold parse_authority. rewrite (strip_app (uOpen :: h ++ [uClose]) t p P) by (right; exists (uOpen :: h), uClose; split; [reflexivity|exact digit_close]).
      cbn [app]. rewrite (proj2 (bracketed_iff (uOpen :: h ++ [uClose]) h) eq_refl). apply v6_iff in V. destruct (is_link_local h); [reflexivity|]. cbn [orb] in V. now rewrite V.
    + destruct (quad_plain h Q) as (M & _ & NV & _).
      replace (uOpen :: str "::ffff:" ++ h ++ uClose :: t) with ((uOpen :: (str "::ffff:" ++ h) ++ [uClose]) ++ t) by (cbn [app]; now rewrite <- !app_assoc).
      unfold parse_authority. rewrite (strip_app (uOpen :: (str "::ffff:" ++ h) ++ [uClose]) t p P) by (right; exists (uOpen :: str "::ffff:" ++ h), uClose; split; [reflexivity|exact digit_close]).
      change ((uOpen :: (str "::ffff:" ++ h) ++ [uClose]) ++ t) with (uOpen :: ((str "::ffff:" ++ h) ++ [uClose]) ++ t). cbv iota.
      rewrite (proj2 (bracketed_iff (uOpen :: (str "::ffff:" ++ h) ++ [uClose]) (str "::ffff:" ++ h)) eq_refl).
      assert (L : is_link_local (str "::ffff:" ++ h) || some_of isHexColon (str "::ffff:" ++ h) = false).
      { apply not_true_iff_false. rewrite v6_iff. destruct Q as (a & b & c & d & -> & A & B & C & D). intros [H|(x & z & E & H & _)].
        - apply (many_notin _ _ _ H hex_dot). apply in_or_app. right. apply in_or_app. right. now left.
        - assert (I : In uPercent (str "::ffff:" ++ a ++ uDot :: b ++ uDot :: c ++ uDot :: d)) by (rewrite E; apply in_or_app; right; now left).
          assert (ND : forall l, many digit l -> ~ In uPercent l) by (intros l G; apply (many_notin _ _ _ G); unfold digit; change (bn uPercent) with 37; lia).
          apply in_app_or in I as [I|I]; [vm_compute in I; intuition discriminate|].
          apply in_app_or in I as [I|I]; [exact (ND a A I)|]. destruct I as [I|I]; [discriminate|].
          apply in_app_or in I as [I|I]; [exact (ND b B I)|]. destruct I as [I|I]; [discriminate|].
          apply in_app_or in I as [I|I]; [exact (ND c C I)|]. destruct I as [I|I]; [discriminate|]. exact (ND d D I). }
      apply orb_false_iff in L as (L1 & L2). rewrite L1, L2. rewrite (proj2 (after_iff (str "::ffff:") _ h) eq_refl). apply quad_iff in Q. now rewrite Q.
    + unfold parse_authority. destruct (h ++ t) as [|x r] eqn:E; [destruct M as (M & _); destruct h; [easy|discriminate]|]. rewrite <- E. clear x r E.
      assert (NC : ~ In uColon h) by (intro I; destruct M as (_ & F); rewrite Forall_forall in F; now apply (F _ I)).
      rewrite (strip_app h t p P) by (left; exact NC). apply plain_iff in M. rewrite M. destruct (bracketed h) as [i|] eqn:Br; auto.
      apply bracketed_iff in Br. specialize (N i Br).
      assert (L : is_link_local i || some_of isHexColon i = false) by (apply not_true_iff_false; now rewrite v6_iff). apply orb_false_iff in L as (-> & ->).
      destruct (after (str "::ffff:") i) as [q|] eqn:Af; auto. apply after_iff in Af. exfalso. apply NC. rewrite Br, Af. right. left. reflexivity.
Qed.
(* ---- whole ---- *)
Lemma scheme_colon : forall s, scheme s -> ~ In uColon s.
Proof.
  intros s [M|(a & b & -> & A & B)]; [exact (many_notin _ _ _ M word_colon)|]. intro I. apply in_app_or in I as [I|[I|I]]; [exact (many_notin _ _ _ A word_colon I)|discriminate|exact (many_notin _ _ _ B word_colon I)].
Qed.
Lemma parse_iff : forall s u, fu_parse s = Some u <-> reads s u.
Proof.
  intros s u. split.
  - intro H. unfold fu_parse in H. destruct (split_at uColon s) as [[sch [|x [|y r]]]|] eqn:E; try discriminate. apply split_iff in E as (-> & N).
    destruct (scheme_ok sch && beqb x uSlash && beqb y uSlash) eqn:C; [|discriminate]. apply andb_true_iff in C as (C & Cy). apply andb_true_iff in C as (Cs & Cx).
    apply beqb_eq in Cx, Cy. subst x y. apply scheme_iff in Cs.
    destruct (split_at uSlash r) as [[a q]|] eqn:S.
    + apply split_iff in S as (-> & Na). destruct (forallb _ (uSlash :: q)) eqn:Q; [|discriminate]. apply notin_fb in Q. destruct (parse_authority a) as [[[v6 h] p]|] eqn:A; [|discriminate]. injection H as <-.
      apply authority_iff in A. apply (rd sch a (uSlash :: q)); auto. right. eauto.
    + apply split_no in S. cbn [forallb] in H. destruct (parse_authority r) as [[[v6 h] p]|] eqn:A; [|discriminate]. injection H as <-. apply authority_iff in A.
      replace (sch ++ uColon :: uSlash :: uSlash :: r) with (sch ++ str "://" ++ r ++ []) by (rewrite app_nil_r; reflexivity). apply (rd sch r []); auto.
  - intro R. destruct R as [s au path v6 h p Sc Na Pa Nq A]. unfold fu_parse. change (str "://" ++ au ++ path) with (uColon :: uSlash :: uSlash :: au ++ path).
    assert (split_at uColon (s ++ uColon :: uSlash :: uSlash :: au ++ path) = Some (s, uSlash :: uSlash :: au ++ path)) as -> by (apply split_iff; split; auto; now apply scheme_colon).
    apply scheme_iff in Sc. rewrite Sc, beqb_refl. cbn [andb]. apply authority_iff in A. destruct Pa as [->|(q & ->)].
    + rewrite app_nil_r. rewrite (proj2 (split_no uSlash au) Na). cbn [forallb]. now rewrite A.
    + assert (split_at uSlash (au ++ uSlash :: q) = Some (au, q)) as -> by (apply split_iff; auto). rewrite (proj2 (notin_fb uQuestion (uSlash :: q)) Nq). now rewrite A.
Qed.
Definition port_part (p : bytes) : bytes := match p with [] => [] | _ => uColon :: p end.
Lemma port_text : forall t p, port t p -> port_part p = t.
Proof. intros t p [(-> & ->)|(-> & (N & _))]; [reflexivity|]. destruct p; [contradiction|reflexivity]. Qed.
Lemma port_slash : forall t p, port t p -> ~ In uSlash t.
Proof. intros t p [(-> & _)|(-> & M)]; [auto|]. intros [I|I]; [discriminate|]. exact (many_notin _ _ _ M digit_slash I). Qed.
Definition host_part (v6 : bool) (h : bytes) : bytes := if v6 then uOpen :: h ++ [uClose] else h.
Lemma au_print : forall au v6 h p, authority au v6 h p -> ~ In uSlash au ->
  authority (host_part v6 h ++ port_part p) v6 h p /\ ~ In uSlash (host_part v6 h ++ port_part p) /\
  (host_part v6 h ++ port_part p = au \/
   exists r, quad_host h /\ au = uOpen :: str "::ffff:" ++ h ++ uClose :: r /\ host_part v6 h ++ port_part p = h ++ r).
Proof.
  intros au v6 h p A N. destruct A as [|h t p V P|h t p Q P|h t p M X P]; unfold host_part.
  - splits; [constructor|auto|auto].
  - rewrite (port_text _ _ P). assert (E : (uOpen :: h ++ [uClose]) ++ t = uOpen :: h ++ uClose :: t) by (cbn [app]; now rewrite <- app_assoc). rewrite E. splits; auto. now apply au_v6.
  - rewrite (port_text _ _ P). destruct (quad_plain h Q) as (M & S & NV & O). splits.
    + apply au_plain; auto. intros i E. now destruct (O (i ++ [uClose])).
    + intro I. apply in_app_or in I as [I|I]; [contradiction|exact (port_slash _ _ P I)].
    + right. exists t. auto.
  - rewrite (port_text _ _ P). splits; auto. now apply au_plain.
Qed.
Lemma print_parts : forall u, fu_print u = fu_scheme u ++ str "://" ++ (host_part (fu_v6 u) (fu_host u) ++ port_part (fu_port u)) ++ fu_path u.
Proof. intros [s h p q v]. unfold fu_print. cbn [fu_scheme fu_host fu_port fu_path fu_v6]. rewrite <- (app_assoc (host_part _ _)). destruct p; reflexivity. Qed.
Lemma print_reads : forall s u, reads s u -> reads (fu_print u) u.
Proof.
  intros s u R. destruct R as [s au path v6 h p Sc Na Pa Nq A]. destruct (au_print au v6 h p A Na) as (B & C & _). rewrite print_parts. cbn [fu_scheme fu_host fu_port fu_path fu_v6]. now apply rd.
Qed.
Lemma print_text : forall s u, reads s u -> fu_print u = s \/
  exists sch q rest, quad_host q /\ s = sch ++ str "://[::ffff:" ++ q ++ str "]" ++ rest /\ fu_print u = sch ++ str "://" ++ q ++ rest.
Proof.
  intros s u R. destruct R as [s au path v6 h p Sc Na Pa Nq A]. destruct (au_print au v6 h p A Na) as (_ & _ & [E|(r & Q & E & F)]); rewrite print_parts; cbn [fu_scheme fu_host fu_port fu_path fu_v6].
  - left. now rewrite E.
  - right. exists s, h, (r ++ path). splits; auto.
    + rewrite E. assert (X : (h ++ uClose :: r) ++ path = h ++ str "]" ++ r ++ path) by (rewrite <- app_assoc; reflexivity).
      change (str "://[::ffff:" ++ h ++ str "]" ++ r ++ path) with (str "://" ++ uOpen :: str "::ffff:" ++ (h ++ str "]" ++ r ++ path)). rewrite <- X. reflexivity.
    + rewrite F. now rewrite <- app_assoc.
Qed.
Lemma fu_eqb_iff : forall a b, fu_eqb a b = true <-> a = b.
Proof.
  intros [s h p q v] [s' h' p' q' v']. unfold fu_eqb. cbn [fu_scheme fu_host fu_port fu_path fu_v6]. rewrite !andb_true_iff, eqb_true_iff, !bytes_eqb_eq. split; [intros ((((-> & ->) & ->) & ->) & ->); reflexivity|intro H; injection H; auto].
Qed.
Lemma round_trip : forall s u, fu_parse s = Some u -> fu_parse (fu_print u) = Some u.
Proof. intros s u H. apply parse_iff. apply parse_iff in H. now apply print_reads in H. Qed.
(* ---- URIs from addresses ---- *)
Lemma in_parts : forall (h t : bytes) c, ~ In c h -> ~ In c t -> ~ In c (h ++ t).
Proof. intros h t c A B I. apply in_app_or in I as [I|I]; auto. Qed.
Lemma build : forall s v6 h p path, scheme s -> ~ In uSlash (host_part v6 h ++ port_part p) -> (path = [] \/ exists q, path = uSlash :: q) -> ~ In uQuestion path ->
  authority (host_part v6 h ++ port_part p) v6 h p -> fu_parse (fu_print (mkFu s h p path v6)) = Some (mkFu s h p path v6).
Proof. intros. apply parse_iff. rewrite print_parts. cbn [fu_scheme fu_host fu_port fu_path fu_v6]. now apply rd. Qed.
Lemma port_of : forall p, p = [] \/ many digit p -> port (port_part p) p.
Proof. intros p [-> |M]; [now left|]. right. split; auto. destruct p; [now destruct M|reflexivity]. Qed.
Lemma v6_slash : forall h, v6_host h -> ~ In uSlash h.
Proof.
  assert (X : ~ hexcolon uSlash) by (unfold hexcolon, digit; change (bn uSlash) with 47; lia).
  intros h [M|(x & z & -> & A & B)]; [exact (many_notin _ _ _ M X)|]. apply in_parts; [exact (many_notin _ _ _ A X)|]. intros [I|I]; [discriminate|].
  apply (many_notin zone uSlash z B); auto. unfold zone. tauto.
Qed.
Lemma build_v6 : forall s h p path, scheme s -> v6_host h -> p = [] \/ many digit p -> path = [] \/ (exists q, path = uSlash :: q) -> ~ In uQuestion path ->
  fu_parse (fu_print (mkFu s h p path true)) = Some (mkFu s h p path true).
Proof.
  intros s h p path S V P Q N. apply port_of in P. apply build; auto.
  - apply in_parts; [|exact (port_slash _ _ P)]. cbn [host_part]. intros [I|I]; [discriminate|]. apply in_app_or in I as [I|[I|[]]]; [now apply (v6_slash h V)|discriminate].
  - unfold host_part. replace ((uOpen :: h ++ [uClose]) ++ port_part p) with (uOpen :: h ++ uClose :: port_part p) by (cbn [app]; now rewrite <- app_assoc). now apply au_v6.
Qed.
Lemma build_plain : forall s h p path, scheme s -> many (fun c => c <> uColon /\ c <> uSlash) h -> (forall i, h <> uOpen :: i ++ [uClose]) -> p = [] \/ many digit p -> path = [] \/ (exists q, path = uSlash :: q) -> ~ In uQuestion path ->
  fu_parse (fu_print (mkFu s h p path false)) = Some (mkFu s h p path false).
Proof.
  intros s h p path S M O P Q N. apply port_of in P. pose proof M as (Nh & F). rewrite Forall_forall in F. apply build; auto.
  - apply in_parts; [|exact (port_slash _ _ P)]. unfold host_part. intro I. now destruct (F _ I).
  - apply au_plain; auto; [|intros i E; now destruct (O i)]. split; auto. apply Forall_forall. intros x I. now destruct (F _ I).
Qed.
Lemma hexchar : forall b, Forall hexcolon (hex2 b).
Proof.
  intro b. assert (H : forallb isHexColon (hex2 b) = true) by (destruct b; reflexivity). rewrite forallb_forall in H. apply Forall_forall. intros x I. apply hexcolon_iff. now apply H.
Qed.
Lemma ether_host : forall a b c d e f, v6_host (ether_text a b c d e f).
Proof.
  intros. left. split; [discriminate|]. assert (X : hexcolon uColon) by (right; right; right; reflexivity). unfold ether_text.
  repeat (apply Forall_app; split; [apply hexchar|constructor; [exact X|]]). apply hexchar.
Qed.
Lemma word_lit : forall s, some_of isWordC s = true -> scheme s.
Proof. intros s H. left. now apply (some_iff isWordC word s word_iff). Qed.
Lemma ether_trip : forall a b c d e f, fu_parse (fu_print (fu_ether a b c d e f)) = Some (fu_ether a b c d e f).
Proof. intros. apply build_v6; auto; [now apply word_lit|apply ether_host]. Qed.
Lemma digits_plain : forall n, many digit n -> many (fun c => c <> uColon /\ c <> uSlash) n /\ forall i, n <> uOpen :: i ++ [uClose].
Proof.
  intros n (N & F). rewrite Forall_forall in F. split.
  - split; auto. apply Forall_forall. intros x I. specialize (F x I). split; intros ->; [now apply digit_colon|now apply digit_slash].
  - intros i ->. apply digit_open. apply F. now left.
Qed.
Lemma fd_trip : forall n, many digit n -> fu_parse (fu_print (fu_fd n)) = Some (fu_fd n).
Proof. intros n M. destruct (digits_plain n M). apply build_plain; auto. now apply word_lit. Qed.
Lemma quad_trip : forall s h p, scheme s -> quad_host h -> many digit p -> fu_parse (fu_print (fu_endpoint s h p false)) = Some (fu_endpoint s h p false).
Proof.
  intros s h p S Q P. destruct (quad_plain h Q) as ((Nh & F) & Sl & _ & O). apply build_plain; auto.
  split; auto. rewrite Forall_forall in *. intros x I. split; [now apply F|]. intros ->. contradiction.
Qed.
Lemma v6_trip : forall s h p, scheme s -> v6_host h -> many digit p -> fu_parse (fu_print (fu_endpoint s h p true)) = Some (fu_endpoint s h p true).
Proof. intros. now apply build_v6; auto. Qed.
Lemma unix_trip : forall q, ~ In uQuestion q -> fu_parse (fu_print (fu_unix (uSlash :: q))) = Some (fu_unix (uSlash :: q)).
Proof.
  intros q N. apply build; auto; [now apply word_lit|right; eauto|intros [I|I]; [discriminate|contradiction]|constructor].
Qed.
Lemma dev_trip : forall n, many (fun c => c <> uColon /\ c <> uSlash) n -> (forall i, n <> uOpen :: i ++ [uClose]) -> fu_parse (fu_print (fu_dev n)) = Some (fu_dev n).
Proof. intros. apply build_plain; auto. now apply word_lit. Qed.
Lemma udpdev_trip : forall v n p, many (fun c => c <> uColon /\ c <> uSlash) n -> (forall i, n <> uOpen :: i ++ [uClose]) -> many digit p -> fu_parse (fu_print (fu_udpdev v n p)) = Some (fu_udpdev v n p).
Proof. intros v n p M O P. apply build_plain; auto. apply scheme_iff. now destruct v. Qed.
Lemma toHexChar_low : forall n, n < 16 -> lowhex (toHexChar n false) n.
Proof.
  intros n L. assert (E : exists k : nat, (k < 16)%nat /\ n = N.of_nat k) by (exists (N.to_nat n); lia). destruct E as (k & Lk & ->).
  do 16 (destruct k as [|k]; [unfold lowhex, digit; vm_compute; intuition congruence|]). lia.
Qed.
Lemma hex2_text : forall b, octet_text b (hex2 b).
Proof.
  intro b. pose proof (bn_lt b) as L. exists (toHexChar (bn b / 16) false), (toHexChar (bn b mod 16) false), (bn b / 16), (bn b mod 16).
  splits; [reflexivity|apply toHexChar_low; lia|apply toHexChar_low; lia|lia].
Qed.

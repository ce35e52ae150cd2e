(* Compilation *)
From Coq Require Import List Lia ZifyBool ZifyNat ZifyN Arith.
From Verif Require Import Base BaseLemmas M_Str M_Name P_Str M_Regex S_Regex P_Regex P_Regex2.
Import ListNotations.
Open Scope N_scope.

Lemma beqb_ne : forall a b, a <> b -> beqb a b = false.
Proof. intros a b H. destruct (beqb a b) eqn:E; [apply beqb_eq in E; contradiction|reflexivity]. Qed.
Lemma beqb_cases : forall a b, (a = b /\ beqb a b = true) \/ (a <> b /\ beqb a b = false).
Proof. intros a b. destruct (beqb a b) eqn:E; [left|right]; split; auto; [now apply beqb_eq|]. intros ->. now rewrite beqb_refl in E. Qed.
Lemma count_app : forall c a b, count c (a ++ b) = (count c a + count c b)%nat.
Proof. intros. unfold count. now rewrite filter_app, app_length. Qed.
Lemma count_same : forall c s, count c (c :: s) = S (count c s).
Proof. intros. unfold count. cbn [filter]. now rewrite beqb_refl. Qed.
Lemma count_other : forall c x s, c <> x -> count c (x :: s) = count c s.
Proof. intros c x s H. unfold count. cbn [filter]. now rewrite (beqb_ne c x H). Qed.
(* depth never falls below 0, starting from d *)
Definition above (l r : byte) (d : nat) (a : bytes) : Prop := forall p q, a = p ++ q -> (count r p <= count l p + d)%nat.
Lemma above_cons : forall l r c a d d', (count l [c] + d = d' + count r [c])%nat -> (above l r d (c :: a) <-> above l r d' a).
Proof.
  intros l r c a d d' E. pose proof (fun p => count_app l [c] p) as Cl. pose proof (fun p => count_app r [c] p) as Cr. cbn [app] in *. split; intros H p q X.
  - specialize (H (c :: p) q ltac:(cbn; now rewrite X)). specialize (Cl p). specialize (Cr p). lia.
  - destruct p as [|c' p]; [cbn; lia|]. injection X as <- X. specialize (H p q X). specialize (Cl p). specialize (Cr p). lia.
Qed.
Lemma span_bal_sound : forall l r, l <> r -> forall s d a b, span_bal l r (S d) s = Some (a, b) -> exists a', a = a' ++ [r] /\ s = a' ++ r :: b /\ count r a' = (count l a' + d)%nat /\ above l r d a'.
Proof.
  intros l r Ne. induction s as [|c s IH]; intros d a b H; cbn [span_bal] in H; [discriminate|].
  assert (Step : forall d', (count l [c] + d = d' + count r [c])%nat -> option_map (fun x => (c :: fst x, snd x)) (span_bal l r (S d') s) = Some (a, b) -> exists a', a = a' ++ [r] /\ c :: s = a' ++ r :: b /\ count r a' = (count l a' + d)%nat /\ above l r d a').
  { intros d' Ed X. destruct (span_bal l r (S d') s) as [[a1 b1]|] eqn:Sp; [|discriminate]. cbn [option_map fst snd] in X. injection X as <- <-. destruct (IH _ _ _ Sp) as (a' & -> & -> & C & A). exists (c :: a'). splits; auto; [|eapply above_cons; eauto]. change (c :: a') with ([c] ++ a'). rewrite !count_app. lia. }
  destruct (beqb_cases c l) as [[-> El]|[Nl El]]; rewrite El in H; cbn beta iota in H.
  - apply (Step (S d)); [|exact H]. rewrite count_same, count_other by auto. cbn. lia.
  - destruct (beqb_cases c r) as [[-> Er]|[Nr Er]]; rewrite Er in H; cbn [pred] in H.
    + destruct d as [|d]; [injection H as <- <-; exists []; splits; auto; intros p q X; destruct p; [cbn; lia|discriminate]|]. apply (Step d); [|exact H]. rewrite count_same, count_other by auto. cbn. lia.
    + apply (Step d); [|exact H]. rewrite !count_other by auto. cbn. lia.
Qed.
Lemma span_bal_complete : forall l r, l <> r -> forall a' d b, count r a' = (count l a' + d)%nat -> above l r d a' -> span_bal l r (S d) (a' ++ r :: b) = Some (a' ++ [r], b).
Proof.
  intros l r Ne. induction a' as [|c a' IH]; intros d b C A; cbn [app span_bal].
  - cbn in C. assert (d = O) by lia. subst d. rewrite (beqb_ne r l) by auto. rewrite beqb_refl. reflexivity.
  - assert (Step : forall d', (count l [c] + d = d' + count r [c])%nat -> option_map (fun x => (c :: fst x, snd x)) (span_bal l r (S d') (a' ++ r :: b)) = Some (c :: a' ++ [r], b)).
    { intros d' Ed. rewrite IH; [reflexivity| |eapply above_cons; eauto]. change (c :: a') with ([c] ++ a') in C. rewrite !count_app in C. lia. }
    destruct (beqb_cases c l) as [[-> El]|[Nl El]]; rewrite El.
    + apply (Step (S d)). rewrite count_same, count_other by auto. cbn. lia.
    + destruct (beqb_cases c r) as [[-> Er]|[Nr Er]]; rewrite Er; cbn [pred].
      * pose proof (A [r] a' eq_refl) as A1. rewrite count_same, count_other in A1 by auto. cbn in A1. destruct d as [|d]; [lia|]. apply Step. rewrite count_same, count_other by auto. cbn. lia.
      * apply Step. rewrite !count_other by auto. cbn. lia.
Qed.
Lemma above0 : forall l r a, count r a = count l a -> (above l r 0 a <-> balanced l r a).
Proof. intros l r a C. unfold above, balanced. split; [intro H; split; [exact C|]; intros p q E; specialize (H p q E); lia|intros [_ H] p q E; specialize (H p q E); lia]. Qed.
Lemma span_bal_iff : forall l r s a b, l <> r -> (span_bal l r 1 s = Some (a, b) <-> exists a', a = a' ++ [r] /\ s = a' ++ r :: b /\ balanced l r a').
Proof.
  intros l r s a b Ne. split.
  - intro H. destruct (span_bal_sound l r Ne _ _ _ _ H) as (a' & E1 & E2 & C & A). exists a'. splits; auto. apply above0; [lia|exact A].
  - intros (a' & -> & -> & B). apply span_bal_complete; auto; [destruct B; lia|]. apply above0; [now destruct B|exact B].
Qed.
(* ---- quantifiers ---- *)
Definition digits (d : bytes) : Prop := Forall (fun c => 48 <= bn c <= 57) d.
Lemma isDigit_iff : forall c, isDigit c = true <-> 48 <= bn c <= 57.
Proof. intro c. unfold isDigit, between. lia. Qed.
Definition stops (t : bytes) : Prop := match t with c :: _ => isDigit c = false | [] => True end.
Lemma span_digits_sound : forall s, s = fst (span_digits s) ++ snd (span_digits s) /\ digits (fst (span_digits s)) /\ stops (snd (span_digits s)).
Proof.
  induction s as [|c s (A & B & C)]; cbn [span_digits]; [splits; auto; constructor|]. destruct (isDigit c) eqn:D; cbn [fst snd].
  - splits; [cbn; now rewrite <- A|constructor; auto; now apply isDigit_iff|exact C].
  - splits; [reflexivity|constructor|exact D].
Qed.
Lemma span_digits_complete : forall d t, digits d -> stops t -> span_digits (d ++ t) = (d, t).
Proof.
  induction 1 as [|c d Hc _ IH]; intro St; cbn [app].
  - destruct t as [|x t]; [reflexivity|]. cbn [span_digits]. cbn in St. now rewrite St.
  - cbn [span_digits]. apply isDigit_iff in Hc. rewrite Hc, (IH St). reflexivity.
Qed.
Lemma read_digits_val : forall d t acc, digits d -> stops t -> read_digits (d ++ t) acc = (fold_left (fun a c => a * 10 + (bn c - 48)) d acc, match d with [] => false | _ => true end).
Proof.
  intros d t acc H St. revert acc. induction H as [|c d Hc _ IH]; intro acc; cbn [app fold_left].
  - destruct t as [|x t]; [reflexivity|]. cbn [read_digits]. cbn in St. now rewrite St.
  - cbn [read_digits]. apply isDigit_iff in Hc. rewrite Hc, IH. reflexivity.
Qed.
Lemma stoul_digits : forall d t, digits d -> d <> [] -> stops t -> stoul (d ++ t) = if decimal d <? two64 then Ok (decimal d) else Err ERuntime.
Proof.
  intros d t H Ne St. unfold stoul, stoull, strtoull. cbv zeta. destruct d as [|c d]; [contradiction|]. assert (Hc : isDigit c = true) by (inversion H; now apply isDigit_iff).
  assert (SK : skip_spaces ((c :: d) ++ t) = (c :: d) ++ t). { cbn [app skip_spaces]. unfold isDigit, between in Hc. unfold isSpace, between. destruct (_ || beqb c x20) eqn:B; [|reflexivity]. exfalso. unfold beqb in B. change (bn x20) with 32 in B. lia. }
  rewrite SK. clear SK. cbn [app]. assert (B1 : beqb c x2d = false /\ beqb c x2b = false). { unfold isDigit, between in Hc. unfold beqb. change (bn x2d) with 45. change (bn x2b) with 43. lia. } destruct B1 as [-> ->].
  change (c :: d ++ t) with ((c :: d) ++ t). rewrite (read_digits_val _ _ _ H St). fold (decimal (c :: d)). cbn [negb]. rewrite N.leb_antisym. destruct (decimal (c :: d) <? two64); reflexivity.
Qed.
Lemma stoul_digits1 : forall d, digits d -> d <> [] -> stoul d = if decimal d <? two64 then Ok (decimal d) else Err ERuntime.
Proof. intros d H Ne. pose proof (stoul_digits d [] H Ne I) as E. now rewrite app_nil_r in E. Qed.
Lemma is_decimal_of : forall d, digits d -> d <> [] -> decimal d < two64 -> is_decimal d.
Proof. intros. unfold is_decimal. auto. Qed.
Lemma parseRep_sound : forall q mn mx, parseRep q = Ok (mn, mx) -> quant q mn (bound mx).
Proof.
  intros q mn mx H. destruct q as [|c t]; [injection H as <- <-; change (bound 1) with (Some 1); constructor|]. destruct t as [|c2 t2].
  - cbn [parseRep] in H. destruct (beqb_cases c cQuest) as [[-> E]|[_ E]]; rewrite E in H; [injection H as <- <-; exact Q_opt|]. destruct (beqb_cases c cPlus) as [[-> E1]|[_ E1]]; rewrite E1 in H; [injection H as <- <-; exact Q_plus|]. destruct (beqb_cases c cStar) as [[-> E2]|[_ E2]]; rewrite E2 in H; [injection H as <- <-; exact Q_star|discriminate].
  - set (t := c2 :: t2) in *. assert (Et : parseRep (c :: t) = if beqb c cLcur then
        let a := span_digits t in
        match snd a with
        | x :: t2 =>
            if beqb x cComma then
              let b := span_digits t2 in
              if bytes_eqb (snd b) [cRcur] then
                match fst a, fst b with
                | [], [] => Err ERuntime
                | [], m => let! mx := stoul m in Ok (0, mx)
                | m, [] => let! mn := stoul (m ++ [cComma]) in Ok (mn, MAX_REP)
                | m, m' => let! mn := stoul m in let! mx := stoul m' in if mx <? mn then Err ERuntime else Ok (mn, mx)
                end
              else Err ERuntime
            else if bytes_eqb (snd a) [cRcur] then
              match fst a with
              | [] => Err ERuntime
              | m => let! mn := stoul (m ++ [cRcur]) in Ok (mn, mn)
              end
            else Err ERuntime
        | [] => Err ERuntime
        end
      else Err ERuntime) by reflexivity. rewrite Et in H. clear Et. clearbody t. clear c2 t2.
    destruct (beqb_cases c cLcur) as [[-> E]|[_ E]]; rewrite E in H; [|discriminate]. cbv zeta in H. destruct (span_digits_sound t) as (A & B & C). destruct (span_digits t) as [d u]. cbn [fst snd] in *. subst t. destruct u as [|x t2]; [discriminate|].
    destruct (beqb_cases x cComma) as [[-> Ex]|[_ Ex]]; rewrite Ex in H.
    + destruct (span_digits_sound t2) as (A2 & B2 & C2). destruct (span_digits t2) as [e v]. cbn [fst snd] in *. subst t2. destruct (bytes_eqb v [cRcur]) eqn:Ev; [|discriminate]. apply bytes_eqb_eq in Ev. subst v.
      destruct d as [|d0 d]; destruct e as [|e0 e]; [discriminate| | |].
      * rewrite stoul_digits1 in H by (auto; discriminate). destruct (N.ltb_spec (decimal (e0 :: e)) two64); [|discriminate]. cbn [bind] in H. injection H as <- <-. apply Q_max. apply is_decimal_of; auto; discriminate.
      * rewrite stoul_digits in H by (auto; try discriminate; reflexivity). destruct (N.ltb_spec (decimal (d0 :: d)) two64); [|discriminate]. cbn [bind] in H. injection H as <- <-. change (bound MAX_REP) with (@None N). apply (Q_min (d0 :: d)). apply is_decimal_of; auto; discriminate.
      * rewrite !stoul_digits1 in H by (auto; discriminate). destruct (N.ltb_spec (decimal (d0 :: d)) two64); [|discriminate]. cbn [bind] in H. destruct (N.ltb_spec (decimal (e0 :: e)) two64); [|discriminate]. cbn [bind] in H. destruct (N.ltb_spec (decimal (e0 :: e)) (decimal (d0 :: d))); [discriminate|]. injection H as <- <-. apply (Q_range (d0 :: d) (e0 :: e)); auto; apply is_decimal_of; auto; discriminate.
    + destruct (bytes_eqb (x :: t2) [cRcur]) eqn:Ev; [|discriminate]. apply bytes_eqb_eq in Ev. injection Ev as -> ->. destruct d as [|d0 d]; [discriminate|]. rewrite stoul_digits in H by (auto; try discriminate; reflexivity). destruct (N.ltb_spec (decimal (d0 :: d)) two64); [|discriminate]. cbn [bind] in H. injection H as <- <-. apply (Q_exact (d0 :: d)). apply is_decimal_of; auto; discriminate.
Qed.
Lemma parseRep_complete : forall q mn mo, quant q mn mo -> exists mx, parseRep q = Ok (mn, mx) /\ bound mx = mo.
Proof.
  intros q mn mo H. destruct H as [| | | |d D|d D|d D|d e D D2 L].
  - exists 1. split; reflexivity.
  - exists 1. split; reflexivity.
  - exists MAX_REP. split; reflexivity.
  - exists MAX_REP. split; reflexivity.
  - destruct D as (Ne & Fd & L). destruct d as [|d0 d]; [contradiction|]. exists (decimal (d0 :: d)). split; [|reflexivity]. cbn [parseRep app]. rewrite beqb_refl. cbv zeta. change (d0 :: d ++ [cRcur]) with ((d0 :: d) ++ [cRcur]). rewrite span_digits_complete by (auto; reflexivity). cbn [fst snd]. change (beqb cRcur cComma) with false. cbn iota. rewrite bytes_eqb_refl. try change (d0 :: d ++ [cRcur]) with ((d0 :: d) ++ [cRcur]). rewrite stoul_digits by (auto; reflexivity). destruct (N.ltb_spec (decimal (d0 :: d)) two64); [reflexivity|lia].
  - destruct D as (Ne & Fd & L). destruct d as [|d0 d]; [contradiction|]. exists MAX_REP. split; [|reflexivity]. cbn [parseRep app]. rewrite beqb_refl. cbv zeta. change (d0 :: d ++ [cComma; cRcur]) with ((d0 :: d) ++ [cComma; cRcur]). rewrite span_digits_complete by (auto; reflexivity). cbn [fst snd]. rewrite beqb_refl. change (span_digits [cRcur]) with (@nil byte, [cRcur]). cbn [fst snd]. rewrite bytes_eqb_refl. try change (d0 :: d ++ [cComma]) with ((d0 :: d) ++ [cComma]). rewrite stoul_digits by (auto; reflexivity). destruct (N.ltb_spec (decimal (d0 :: d)) two64); [reflexivity|lia].
  - destruct D as (Ne & Fd & L). destruct d as [|d0 d]; [contradiction|]. exists (decimal (d0 :: d)). split; [|reflexivity]. cbn [parseRep app]. rewrite beqb_refl. cbv zeta. change (cComma :: d0 :: d ++ [cRcur]) with ([] ++ cComma :: (d0 :: d) ++ [cRcur]). rewrite span_digits_complete by (try constructor; reflexivity). cbn [fst snd]. rewrite beqb_refl. rewrite span_digits_complete by (auto; reflexivity). cbn [fst snd]. rewrite bytes_eqb_refl. rewrite stoul_digits1 by auto. destruct (N.ltb_spec (decimal (d0 :: d)) two64); [reflexivity|lia].
  - destruct D as (Ne & Fd & L1). destruct D2 as (Ne2 & Fe & L2). destruct d as [|d0 d]; [contradiction|]. destruct e as [|e0 e]; [contradiction|]. exists (decimal (e0 :: e)). split; [|reflexivity]. cbn [parseRep app]. rewrite beqb_refl. cbv zeta. change (d0 :: d ++ cComma :: e0 :: e ++ [cRcur]) with ((d0 :: d) ++ cComma :: (e0 :: e) ++ [cRcur]). rewrite span_digits_complete by (auto; reflexivity). cbn [fst snd]. rewrite beqb_refl. rewrite span_digits_complete by (auto; reflexivity). cbn [fst snd]. rewrite bytes_eqb_refl, !stoul_digits1 by auto. destruct (N.ltb_spec (decimal (d0 :: d)) two64); [|lia]. cbn [bind]. destruct (N.ltb_spec (decimal (e0 :: e)) two64); [|lia]. cbn [bind]. destruct (N.ltb_spec (decimal (e0 :: e)) (decimal (d0 :: d))); [lia|reflexivity].
Qed.
Lemma span_to_sound : forall c s a b, span_to c s = Some (a, b) -> s = a ++ b.
Proof.
  induction s as [|x s IH]; intros a b H; cbn [span_to] in H; [discriminate|]. destruct (beqb x c); [injection H as <- <-; reflexivity|]. destruct (span_to c s) as [[a1 b1]|]; [|discriminate]. cbn [option_map fst snd] in H. injection H as <- <-. cbn. now rewrite (IH a1 b1).
Qed.
Lemma span_to_complete : forall c a b, ~ In c a -> span_to c (a ++ c :: b) = Some (a ++ [c], b).
Proof.
  induction a as [|x a IH]; intros b H; cbn [app span_to]; [now rewrite beqb_refl|]. rewrite beqb_ne by (intros ->; apply H; now left). rewrite IH; [reflexivity|]. intro I. apply H. now right.
Qed.
Lemma extractRep_sound : forall s q t, extractRep s = Ok (q, t) -> s = q ++ t.
Proof.
  intros s q t H. destruct s as [|c s]; cbn [extractRep] in H; [injection H as <- <-; reflexivity|]. destruct (_ || _); [injection H as <- <-; reflexivity|]. destruct (beqb c cLcur); [|injection H as <- <-; reflexivity]. destruct (span_to cRcur (c :: s)) as [[a b]|] eqn:E; [|discriminate]. injection H as <- <-. eapply span_to_sound; eauto.
Qed.
Definition starter (t : bytes) : Prop := match t with [] => True | c :: _ => c = cLpar \/ c = cLt \/ c = cLbra end.
Lemma digits_no : forall d c, digits d -> isDigit c = false -> ~ In c d.
Proof. intros d c H E I. unfold digits in H. rewrite Forall_forall in H. apply H, isDigit_iff in I. congruence. Qed.
Lemma extractRep_curly : forall x t, ~ In cRcur x -> extractRep (cLcur :: x ++ cRcur :: t) = Ok (cLcur :: x ++ [cRcur], t).
Proof.
  intros x t H. cbn [extractRep]. change (beqb cLcur cPlus || beqb cLcur cQuest || beqb cLcur cStar) with false. rewrite beqb_refl. change (cLcur :: x ++ cRcur :: t) with ((cLcur :: x) ++ cRcur :: t). rewrite span_to_complete; [reflexivity|]. intros [E|I]; [discriminate E|auto].
Qed.
Lemma extractRep_complete : forall q mn mx t, quant q mn mx -> starter t -> extractRep (q ++ t) = Ok (q, t).
Proof.
  intros q mn mx t H St. assert (Nd : isDigit cRcur = false) by reflexivity. destruct H as [| | | |d D|d D|d D|d e D D2 L]; try reflexivity.
  - cbn [app]. destruct t as [|c t]; [reflexivity|]. cbn in St. decompose [or] St; subst; reflexivity.
  - destruct D as (Ne & Fd & _). cbn [app]. rewrite <- app_assoc. cbn [app]. apply extractRep_curly. now apply digits_no.
  - destruct D as (Ne & Fd & _). replace (cLcur :: d ++ [cComma; cRcur]) with (cLcur :: (d ++ [cComma]) ++ [cRcur]) by (now rewrite <- app_assoc). cbn [app]. rewrite <- app_assoc. cbn [app]. apply extractRep_curly. rewrite in_app_iff. intros [I|[E|[]]]; [revert I; now apply digits_no|discriminate E].
  - destruct D as (Ne & Fd & _). change (cLcur :: cComma :: d ++ [cRcur]) with (cLcur :: (cComma :: d) ++ [cRcur]). cbn [app]. rewrite <- app_assoc. cbn [app]. apply (extractRep_curly (cComma :: d)). intros [E|I]; [discriminate E|]. revert I. now apply digits_no.
  - destruct D as (Ne & Fd & _). destruct D2 as (Ne2 & Fe & _). replace (cLcur :: d ++ cComma :: e ++ [cRcur]) with (cLcur :: (d ++ cComma :: e) ++ [cRcur]) by (now rewrite <- app_assoc). cbn [app]. rewrite <- app_assoc. cbn [app]. apply extractRep_curly. rewrite in_app_iff. intros [I|[E|I]]; [revert I; now apply digits_no|discriminate E|revert I; now apply digits_no].
Qed.
(* ---- components ---- *)
Lemma extractComp_iff : forall s e rest, extractComp s = Some (e, rest) <-> comp_text e /\ s = e ++ cGt :: rest.
Proof.
  intros s e rest. assert (Ne : cLt <> cGt) by discriminate. unfold extractComp. split.
  - intro H. destruct (span_bal cLt cGt 1 s) as [[a b]|] eqn:Sp; [|discriminate]. apply span_bal_iff in Sp; [|exact Ne]. destruct Sp as (a' & -> & -> & B). destruct (existsb _ _) eqn:Ex; [discriminate|]. rewrite removelast_last in H. injection H as <- <-. splits; auto. split; [exact B|]. intro I. assert (X : existsb (fun c => beqb c x00) (a' ++ [cGt]) = true) by (apply existsb_exists; exists x00; split; [apply in_app_iff; auto|reflexivity]). congruence.
  - intros [[B Z] ->]. assert (Sp : span_bal cLt cGt 1 (e ++ cGt :: rest) = Some (e ++ [cGt], rest)) by (apply span_bal_iff; [exact Ne|exists e; auto]). rewrite Sp. destruct (existsb _ _) eqn:Ex; [|now rewrite removelast_last]. apply existsb_exists in Ex. destruct Ex as (c & I & E). apply beqb_eq in E. subst c. apply in_app_iff in I. destruct I as [I|[I|[]]]; [contradiction|discriminate].
Qed.
Section P.
Variable re_count : bytes -> option N.
Notation marks_of := (marks_of re_count).
Notation valid := (valid re_count).
Notation newComp := (newComp re_count).
Notation comps_multi := (comps_multi re_count).
Notation newSet := (newSet re_count).
Notation rx_list := (rx_list re_count).
Notation numb := (numb marks_of).
Notation numbl := (numbl marks_of).
Notation numbc := (numbc marks_of).
Notation width := (width marks_of).
Notation widths := (widths marks_of).

Lemma newComp_sound : forall e n x n', newComp e n = Ok (x, n') -> rc_expr x = e /\ rc_base x = n /\ rc_marks x = marks_of e /\ n' = n + marks_of e /\ valid e.
Proof. intros e n x n' H. unfold M_Regex.newComp in H. unfold S_Regex.marks_of, S_Regex.valid. destruct (re_count e) as [k|]; [|discriminate]. injection H as <- <-. cbn. splits; auto. discriminate. Qed.
Lemma comps_multi_sound : forall fuel s n l n', comps_multi fuel s n = Ok (l, n') ->
  let es := map rc_expr l in Forall comp_text es /\ s = concat (map angled es) /\ numbc l n /\ n' = n + sum (map marks_of es) /\ Forall valid es.
Proof.
  induction fuel as [|fuel IH]; intros s n l n' H; cbn [M_Regex.comps_multi] in H; [discriminate|]. destruct s as [|c s].
  - injection H as <- <-. cbn. splits; auto. lia.
  - destruct (beqb_cases c cLt) as [[-> E]|[_ E]]; rewrite E in H; [|discriminate]. destruct (extractComp s) as [[e rest]|] eqn:Ex; [|discriminate]. apply extractComp_iff in Ex. destruct Ex as [T ->]. destruct (newComp e n) as [[x n1]|] eqn:Nc; cbn [bind fst snd] in H; [|discriminate]. destruct (comps_multi fuel rest n1) as [[l1 n2]|] eqn:Cm; cbn [bind fst snd] in H; [|discriminate]. injection H as <- <-.
    apply newComp_sound in Nc. destruct Nc as (<- & B & M & -> & V). destruct (IH _ _ _ _ Cm) as (A1 & A2 & A3 & A4 & A5). cbn [map concat M_Regex.rc_expr sum fold_right]. cbv zeta. cbn [map concat P_Regex2.numbc fold_right]. splits.
    + constructor; auto.
    + rewrite A2 at 1. unfold angled at 2. cbn [app]. now rewrite <- app_assoc.
    + exact B.
    + exact M.
    + rewrite M. exact A3.
    + rewrite A4. unfold sum. cbn [map fold_right]. lia.
    + constructor; auto.
Qed.
Lemma comps_multi_complete : forall es fuel n, Forall comp_text es -> Forall valid es -> (length (concat (map angled es)) < fuel)%nat -> exists l n', comps_multi fuel (concat (map angled es)) n = Ok (l, n') /\ map rc_expr l = es.
Proof.
  induction es as [|e es IH]; intros fuel n T V L; (destruct fuel as [|fuel]; [lia|]); cbn [map concat M_Regex.comps_multi] in *.
  - exists [], n. split; reflexivity.
  - unfold angled at 1. unfold angled at 1 in L. cbn [app] in *. rewrite beqb_refl. rewrite <- app_assoc in *. cbn [app] in *. inversion T as [|? ? T1 T2]; subst. inversion V as [|? ? V1 V2]; subst.
    assert (Ex : extractComp (e ++ cGt :: concat (map angled es)) = Some (e, concat (map angled es))) by (apply extractComp_iff; auto). rewrite Ex. unfold M_Regex.newComp. unfold S_Regex.valid in V1. destruct (re_count e) as [k|] eqn:C; [|contradiction]. cbn [bind fst snd].
    destruct (IH fuel (n + k) T2 V2) as (l & n' & E & M). { cbn [length] in L. rewrite app_length in L. cbn [length] in L. lia. } rewrite E. cbn [bind fst snd]. eexists _, _. split; [reflexivity|]. cbn [map rc_expr]. now rewrite M.
Qed.
Lemma balanced_caret : forall s, balanced cLbra cRbra (cCaret :: s) <-> balanced cLbra cRbra s.
Proof using.
  clear re_count. intro s. unfold balanced. rewrite !count_other by discriminate. split; intros [A B]; (split; [exact A|]); intros p q E.
  - specialize (B (cCaret :: p) q ltac:(cbn; now rewrite E)). rewrite !count_other in B by discriminate. exact B.
  - destruct p as [|c p]; [cbn; lia|]. injection E as <- E. rewrite !count_other by discriminate. eapply B; eauto.
Qed.
Lemma newSet_sound : forall c a' n r n', (c = cLt /\ balanced cLt cGt a' /\ newSet (c :: a' ++ [cGt]) n = Ok (r, n')) \/ (c = cLbra /\ balanced cLbra cRbra a' /\ newSet (c :: a' ++ [cRbra]) n = Ok (r, n')) ->
  exists incl l, r = RSet incl l /\ set_text (c :: a' ++ [if beqb c cLt then cGt else cRbra]) incl (map rc_expr l) /\ numbc l n /\ n' = n + sum (map marks_of (map rc_expr l)) /\ Forall valid (map rc_expr l).
Proof.
  intros c a' n r n' [(-> & B & H)|(-> & B & H)].
  - change (beqb cLt cLt) with true. cbn iota. unfold M_Regex.newSet in H. destruct (a' ++ [cGt]) as [|c1 s2] eqn:E; [destruct a'; discriminate|]. change (beqb cLt cLt) with true in H. cbn iota in H. destruct (extractComp (c1 :: s2)) as [[e rest]|] eqn:Ex; [|discriminate]. destruct rest; [|discriminate]. apply extractComp_iff in Ex. destruct Ex as [T Eq].
    destruct (newComp e n) as [[x n1]|] eqn:Nc; cbn [bind fst snd] in H; [|discriminate]. injection H as <- <-. apply newComp_sound in Nc. destruct Nc as (<- & Bx & M & -> & V). exists true, [x]. rewrite Eq. cbn [map sum fold_right P_Regex2.numbc]. splits; auto; [apply (S_one (rc_expr x)); exact T|lia].
  - change (beqb cLbra cLt) with false. cbn iota. unfold M_Regex.newSet in H. destruct (a' ++ [cRbra]) as [|c1 s2] eqn:E; [destruct a'; discriminate|]. change (beqb cLbra cLt) with false in H. change (beqb cLbra cLbra) with true in H. cbn iota in H. cbv zeta in H. rewrite <- E in H. rewrite last_last, removelast_last in H. change (beqb cRbra cRbra) with true in H. cbn iota in H.
    destruct (beqb_cases c1 cCaret) as [[-> Ec]|[Nc Ec]]; rewrite Ec in H.
    + destruct a' as [|x a'']; [cbn in E; discriminate|]. injection E as -> E. rewrite <- E, removelast_last in H. destruct (comps_multi _ a'' n) as [[l n1]|] eqn:Cm; cbn [bind fst snd] in H; [|discriminate]. injection H as <- <-. apply comps_multi_sound in Cm. destruct Cm as (T & Es & Nb & En & V). exists false, l. rewrite <- E, Es. splits; auto. apply S_out; [exact T|]. rewrite <- Es. now apply balanced_caret.
    + destruct (comps_multi _ a' n) as [[l n1]|] eqn:Cm; cbn [bind fst snd] in H; [|discriminate]. injection H as <- <-. apply comps_multi_sound in Cm. destruct Cm as (T & Es & Nb & En & V). exists true, l. rewrite <- E, Es. splits; auto. apply S_in; [exact T|]. now rewrite <- Es.
Qed.
Lemma set_text_shape : forall s incl l, set_text s incl l -> exists c a', s = c :: a' ++ [if beqb c cLt then cGt else cRbra] /\ ((c = cLt /\ balanced cLt cGt a') \/ (c = cLbra /\ balanced cLbra cRbra a')).
Proof using.
  intros s incl l [e [B Z]|l' T B|l' T B].
  - exists cLt, e. split; [reflexivity|]. now left.
  - exists cLbra, (concat (map angled l')). split; [reflexivity|]. now right.
  - exists cLbra, (cCaret :: concat (map angled l')). split; [reflexivity|]. right. split; [reflexivity|]. now apply balanced_caret.
Qed.
Lemma newSet_complete : forall s incl es n, set_text s incl es -> Forall valid es -> exists l n', newSet s n = Ok (RSet incl l, n') /\ map rc_expr l = es.
Proof.
  intros s incl es n H V. destruct H as [e T|es T B|es T B].
  - unfold angled, M_Regex.newSet. destruct (e ++ [cGt]) as [|c1 s2] eqn:E; [destruct e; discriminate|]. change (beqb cLt cLt) with true. cbn iota. assert (Ex : extractComp (c1 :: s2) = Some (e, [])) by (rewrite <- E; apply extractComp_iff; auto). rewrite Ex. inversion V as [|? ? V1 _]; subst. unfold M_Regex.newComp. unfold S_Regex.valid in V1. destruct (re_count e) as [k|] eqn:C; [|contradiction]. cbn [bind fst snd]. eexists _, _. split; reflexivity.
  - unfold M_Regex.newSet. destruct (concat (map angled es) ++ [cRbra]) as [|c1 s2] eqn:E; [destruct (concat (map angled es)); discriminate|]. change (beqb cLbra cLt) with false. change (beqb cLbra cLbra) with true. cbn iota. cbv zeta. assert (C1 : beqb c1 cCaret = false). { destruct es as [|e es]; cbn in E; injection E as <- _; reflexivity. } rewrite C1. rewrite <- E. rewrite last_last, removelast_last. change (beqb cRbra cRbra) with true. cbn iota.
    destruct (comps_multi_complete es (S (length (concat (map angled es)))) n T V) as (l & n' & Eq & M); [lia|]. rewrite Eq. cbn [bind fst snd]. eexists _, _. split; [reflexivity|exact M].
  - unfold M_Regex.newSet. change (beqb cLbra cLt) with false. change (beqb cLbra cLbra) with true. cbn iota. cbv zeta. change (cCaret :: concat (map angled es) ++ [cRbra]) with ((cCaret :: concat (map angled es)) ++ [cRbra]). rewrite last_last, removelast_last. change (beqb cRbra cRbra) with true. change (beqb cCaret cCaret) with true. cbn iota. rewrite removelast_last.
    destruct (comps_multi_complete es (S (length (cCaret :: concat (map angled es)))) n T V) as (l & n' & Eq & M); [cbn [length]; lia|]. rewrite Eq. cbn [bind fst snd]. eexists _, _. split; [reflexivity|exact M].
Qed.
(* ---- lists of patterns ---- *)
Lemma rx_list_sound : forall fuel s n l n', rx_list fuel s n = Ok (l, n') -> spelled (map erase l) s /\ numbl l n /\ n' = n + widths (map erase l) /\ Forall valid (flat_map exprs (map erase l)).
Proof.
  induction fuel as [|fuel IH]; intros s n l n' H; cbn [M_Regex.rx_list] in H; [discriminate|]. destruct s as [|c s].
  { injection H as <- <-. cbn. splits; auto; [constructor|]. unfold P_Regex2.widths. cbn. lia. }
  destruct (beqb_cases c cLpar) as [[-> E]|[_ E]]; rewrite E in H.
  - destruct (span_bal cLpar cRpar 1 s) as [[a rest]|] eqn:Sp; [|discriminate]. apply span_bal_iff in Sp; [|discriminate]. destruct Sp as (a' & -> & -> & B). rewrite removelast_last in H.
    destruct (extractRep rest) as [[q t]|] eqn:Er; cbn [bind fst snd] in H; [|discriminate]. apply extractRep_sound in Er. subst rest. destruct (rx_list fuel a' (n + 1)) as [[g n1]|] eqn:G; cbn [bind fst snd] in H; [|discriminate]. destruct (IH _ _ _ _ G) as (A1 & A2 & -> & A4).
    destruct q as [|q0 q].
    + cbn [bind] in H. destruct (rx_list fuel t _) as [[l1 n2]|] eqn:L1; cbn [bind fst snd] in H; [|discriminate]. injection H as <- <-. destruct (IH _ _ _ _ L1) as (B1 & B2 & -> & B4). cbn [map erase flat_map exprs]. splits.
      * cbn [app]. apply P_group; auto.
      * cbn [P_Regex2.numbl]. split; [apply numb_grp; auto|]. cbn [erase]. rewrite width_grp. now replace (n + (1 + widths (map erase g))) with (n + 1 + widths (map erase g)) by lia.
      * unfold P_Regex2.widths. cbn [map sum fold_right]. fold (sum (map width (map erase l1))). rewrite width_grp. unfold P_Regex2.widths. lia.
      * apply Forall_app. auto.
    + destruct (parseRep (q0 :: q)) as [[mn mx]|] eqn:Pr; cbn [bind fst snd] in H; [|discriminate]. apply parseRep_sound in Pr. destruct (rx_list fuel t _) as [[l1 n2]|] eqn:L1; cbn [bind fst snd] in H; [|discriminate]. injection H as <- <-. destruct (IH _ _ _ _ L1) as (B1 & B2 & -> & B4). cbn [map erase flat_map exprs]. splits.
      * apply P_group_rep; auto. discriminate.
      * cbn [P_Regex2.numbl P_Regex2.numb]. split; [apply numb_grp; auto|]. change (numbl l1 (n + (1 + widths (map erase g)))). now replace (n + (1 + widths (map erase g))) with (n + 1 + widths (map erase g)) by lia.
      * unfold P_Regex2.widths. cbn [map sum fold_right S_Regex.width]. fold (sum (map width (map erase l1))) (sum (map width (map erase g))). unfold P_Regex2.widths. lia.
      * apply Forall_app. auto.
  - destruct (beqb c cLt || beqb c cLbra) eqn:E2; [|discriminate]. assert (Hc : c = cLt \/ c = cLbra) by (apply Bool.orb_true_iff in E2; destruct E2 as [X|X]; apply beqb_eq in X; auto). set (cl := if beqb c cLt then cGt else cRbra) in *. assert (Ncl : c <> cl) by (unfold cl; destruct Hc; subst c; discriminate).
    destruct (span_bal c cl 1 s) as [[a rest]|] eqn:Sp; [|discriminate]. apply span_bal_iff in Sp; [|exact Ncl]. destruct Sp as (a' & -> & -> & B).
    destruct (extractRep rest) as [[q t]|] eqn:Er; cbn [bind fst snd] in H; [|discriminate]. apply extractRep_sound in Er. subst rest. destruct (newSet (c :: a' ++ [cl]) n) as [[r n1]|] eqn:Ns; cbn [bind fst snd] in H; [|discriminate]. destruct (parseRep q) as [[mn mx]|] eqn:Pr; cbn [bind fst snd] in H; [|discriminate]. apply parseRep_sound in Pr. destruct (rx_list fuel t n1) as [[l1 n2]|] eqn:L1; cbn [bind fst snd] in H; [|discriminate]. injection H as <- <-.
    destruct (newSet_sound c a' n r n1) as (incl & ls & -> & T & Nb & -> & V). { destruct Hc; subst c; [left|right]; auto. } fold cl in T. destruct (IH _ _ _ _ L1) as (B1 & B2 & -> & B4). cbn [map erase flat_map exprs]. splits.
    + pose proof (P_set _ _ _ _ _ _ _ _ T Pr B1) as X. cbn [app] in X. rewrite <- app_assoc in X. exact X.
    + cbn [P_Regex2.numbl P_Regex2.numb erase S_Regex.width]. auto.
    + unfold P_Regex2.widths. cbn [map sum fold_right S_Regex.width]. fold (sum (map width (map erase l1))) (sum (map marks_of (map rc_expr ls))). lia.
    + apply Forall_app. auto.
Qed.
Lemma spelled_starter : forall ps s, spelled ps s -> starter s.
Proof using.
  intros ps s H. destruct H as [|l s0 ps t| |st incl l q mn mx ps t T]; cbn; auto. destruct (set_text_shape _ _ _ T) as (c & a' & -> & Hc). cbn. destruct Hc as [[-> _]|[-> _]]; auto.
Qed.
Lemma rx_list_complete : forall ps s, spelled ps s -> forall fuel n, (length s < fuel)%nat -> Forall valid (flat_map exprs ps) -> exists l n', rx_list fuel s n = Ok (l, n') /\ map erase l = ps.
Proof.
  induction 1 as [|l s ps t Hs IHs B Ht IHt|l s q mn mx ps t Hs IHs B Q Qn Ht IHt|st incl l q mn mx ps t T Q Ht IHt]; intros fuel n L V; (destruct fuel as [|fuel]; [lia|]); cbn [M_Regex.rx_list].
  - exists [], n. split; reflexivity.
  - rewrite beqb_refl. assert (Sp : span_bal cLpar cRpar 1 (s ++ cRpar :: t) = Some (s ++ [cRpar], t)) by (apply span_bal_iff; [discriminate|eauto]). rewrite Sp, removelast_last. pose proof (extractRep_complete [] 1 (Some 1) t Q_one (spelled_starter _ _ Ht)) as Er. cbn [app] in Er. rewrite Er. cbn [bind fst snd].
    cbn [flat_map exprs] in V. apply Forall_app in V. destruct V as [V1 V2]. cbn [length] in L. rewrite app_length in L. cbn [length] in L. destruct (IHs fuel (n + 1)) as (g & n1 & E1 & M1); [lia|exact V1|]. rewrite E1. cbn [bind fst snd]. destruct (IHt fuel n1) as (r & n2 & E2 & M2); [lia|exact V2|]. rewrite E2. cbn [bind fst snd]. eexists _, _. split; [reflexivity|]. cbn [map erase]. now rewrite M1, M2.
  - rewrite beqb_refl. assert (Sp : span_bal cLpar cRpar 1 (s ++ cRpar :: q ++ t) = Some (s ++ [cRpar], q ++ t)) by (apply span_bal_iff; [discriminate|eauto]). rewrite Sp, removelast_last. rewrite (extractRep_complete q mn mx t Q (spelled_starter _ _ Ht)). cbn [bind fst snd].
    cbn [flat_map exprs] in V. apply Forall_app in V. destruct V as [V1 V2]. cbn [length] in L. rewrite app_length in L. cbn [length] in L. rewrite app_length in L. destruct (IHs fuel (n + 1)) as (g & n1 & E1 & M1); [lia|exact V1|]. rewrite E1. cbn [bind fst snd]. destruct (parseRep_complete _ _ _ Q) as (m2 & Pr & Bm). destruct q as [|q0 q]; [contradiction|]. rewrite Pr. cbn [bind fst snd]. destruct (IHt fuel n1) as (r & n2 & E2 & M2); [lia|exact V2|]. rewrite E2. cbn [bind fst snd]. eexists _, _. split; [reflexivity|]. cbn [map erase]. now rewrite M1, M2, Bm.
  - cbn [flat_map exprs] in V. apply Forall_app in V. destruct V as [V1 V2]. destruct (newSet_complete st incl l n T V1) as (rl & n1 & Ns & M). destruct (set_text_shape _ _ _ T) as (c & a' & -> & Hc). set (cl := if beqb c cLt then cGt else cRbra) in *. cbn [app]. rewrite <- app_assoc. cbn [app]. cbn [app length] in L. rewrite !app_length in L. cbn [length] in L.
    assert (E0 : beqb c cLpar = false) by (destruct Hc as [[-> _]|[-> _]]; reflexivity). rewrite E0. assert (E1 : beqb c cLt || beqb c cLbra = true) by (destruct Hc as [[-> _]|[-> _]]; reflexivity). rewrite E1. fold cl.
    assert (Sp : span_bal c cl 1 (a' ++ cl :: q ++ t) = Some (a' ++ [cl], q ++ t)). { apply span_bal_iff; [unfold cl; destruct Hc as [[-> _]|[-> _]]; discriminate|]. exists a'. splits; auto. unfold cl. destruct Hc as [[-> B]|[-> B]]; exact B. } rewrite Sp. rewrite (extractRep_complete q mn mx t Q (spelled_starter _ _ Ht)). cbn [bind fst snd]. rewrite Ns. cbn [bind fst snd]. destruct (parseRep_complete _ _ _ Q) as (m2 & Pr & Bm). rewrite Pr. cbn [bind fst snd].
    destruct (IHt fuel n1) as (r & n2 & E2 & M2); [lia|exact V2|]. rewrite E2. cbn [bind fst snd]. eexists _, _. split; [reflexivity|]. cbn [map erase]. now rewrite M, M2, Bm.
Qed.
Lemma spelled_app : forall ps s qs t, spelled ps s -> spelled qs t -> spelled (ps ++ qs) (s ++ t).
Proof using.
  intros ps s qs t H Hq. induction H as [|l s ps u Hs _ B Hu IH|l s q mn mx ps u Hs _ B Q Qn Hu IH|st incl l q mn mx ps u T Q Hu IH]; cbn [app].
  - exact Hq.
  - rewrite <- app_assoc. cbn [app]. apply P_group; auto.
  - rewrite <- app_assoc. cbn [app]. rewrite <- app_assoc. apply P_group_rep; auto.
  - rewrite <- !app_assoc. apply P_set; auto.
Qed.
(* errors *)
Definition fine {A} (r : res A) : Prop := match r with Ok _ => True | Err e => e = ERuntime end.
Lemma fine_bind : forall A B (m : res A) (k : A -> res B), fine m -> (forall a, m = Ok a -> fine (k a)) -> fine (bind m k).
Proof using. intros A B [a|e] k H K; cbn [bind]; [now apply K|exact H]. Qed.
Lemma newComp_fine : forall e m, fine (newComp e m).
Proof using. intros. unfold M_Regex.newComp. destruct (re_count e); exact I || reflexivity. Qed.
Lemma comps_fine : forall f x m, (length x < f)%nat -> fine (comps_multi f x m).
Proof using.
  induction f as [|f IH]; intros x m L; [lia|]. cbn [M_Regex.comps_multi]. destruct x as [|c x]; [exact I|]. cbn [length] in L. destruct (beqb c cLt); [|reflexivity]. destruct (extractComp x) as [[e rest]|] eqn:Ex; [|reflexivity]. apply extractComp_iff in Ex. destruct Ex as [_ ->]. rewrite app_length in L. cbn [length] in L.
  apply fine_bind; [apply newComp_fine|]. intros a _. apply fine_bind; [apply IH; lia|]. intros; exact I.
Qed.
Lemma newSet_fine : forall x m, fine (newSet x m).
Proof using.
  intros x m. unfold M_Regex.newSet. destruct x as [|x0 [|x1 x]]; try reflexivity. destruct (beqb x0 cLt).
  - destruct (extractComp (x1 :: x)) as [[e [|? ?]]|]; try reflexivity. apply fine_bind; [apply newComp_fine|]. intros; exact I.
  - destruct (beqb x0 cLbra); [|reflexivity]. destruct (beqb (last (x1 :: x) x00) cRbra); [|reflexivity]. cbv zeta. destruct (beqb x1 cCaret); (apply fine_bind; [apply comps_fine|intros; exact I]); [|lia].
    destruct x as [|x2 x]; [cbn; lia|]; change (removelast (x1 :: x2 :: x)) with (x1 :: removelast (x2 :: x)); cbn [length]; lia.
Qed.
Lemma stoul_fine : forall x, fine (stoul x).
Proof using. intro x. unfold stoul. destruct (stoull x); exact I || reflexivity. Qed.
Lemma extractRep_fine : forall x, fine (extractRep x).
Proof using. intro x. unfold extractRep. destruct x as [|b x]; [exact I|]. destruct (_ || _); [exact I|]. destruct (beqb b cLcur); [|exact I]. destruct (span_to cRcur (b :: x)) as [[? ?]|]; exact I || reflexivity. Qed.
Lemma parseRep_fine : forall x, fine (parseRep x).
Proof using.
  intro x. unfold parseRep. destruct x as [|x0 x]; [exact I|]. destruct x as [|x1 x]; [destruct (beqb x0 cQuest); [exact I|]; destruct (beqb x0 cPlus); [exact I|]; destruct (beqb x0 cStar); exact I || reflexivity|]. destruct (beqb x0 cLcur); [|reflexivity]. cbv zeta. destruct (snd (span_digits (x1 :: x))) as [|y t2]; [reflexivity|]. destruct (beqb y cComma).
  - destruct (bytes_eqb _ _); [|reflexivity]. destruct (fst (span_digits (x1 :: x))) as [|d0 d]; destruct (fst (span_digits t2)) as [|e0 e]; try reflexivity; (apply fine_bind; [apply stoul_fine|]; intros; try exact I). apply fine_bind; [apply stoul_fine|]. intros. destruct (_ <? _); exact I || reflexivity.
  - destruct (bytes_eqb _ _); [|reflexivity]. destruct (fst (span_digits (x1 :: x))) as [|d0 d]; [reflexivity|]. apply fine_bind; [apply stoul_fine|]. intros; exact I.
Qed.
Lemma rx_list_fine : forall fuel s n, (length s < fuel)%nat -> fine (rx_list fuel s n).
Proof using.
  induction fuel as [|fuel IH]; intros s n L; [lia|]. cbn [M_Regex.rx_list]. destruct s as [|c s]; [exact I|]. cbn [length] in L. destruct (beqb c cLpar).
  - destruct (span_bal cLpar cRpar 1 s) as [[a rest]|] eqn:Sp; [|reflexivity]. apply span_bal_iff in Sp; [|discriminate]. destruct Sp as (a' & -> & -> & _). rewrite removelast_last. rewrite app_length in L. cbn [length] in L. apply fine_bind; [apply extractRep_fine|]. intros [q t] Er. apply extractRep_sound in Er. subst rest. rewrite app_length in L. cbn [fst snd].
    apply fine_bind; [apply IH; lia|]. intros g _. apply fine_bind; [destruct q; [exact I|]; apply fine_bind; [apply parseRep_fine|intros; exact I]|]. intros r _. apply fine_bind; [apply IH; lia|]. intros; exact I.
  - destruct (beqb c cLt || beqb c cLbra) eqn:E2; [|reflexivity]. assert (Hc : c = cLt \/ c = cLbra) by (apply Bool.orb_true_iff in E2; destruct E2 as [X|X]; apply beqb_eq in X; auto). set (cl := if beqb c cLt then cGt else cRbra) in *. assert (Ncl : c <> cl) by (unfold cl; destruct Hc; subst c; discriminate).
    destruct (span_bal c cl 1 s) as [[a rest]|] eqn:Sp; [|reflexivity]. apply span_bal_iff in Sp; [|exact Ncl]. destruct Sp as (a' & -> & -> & _). rewrite app_length in L. cbn [length] in L. apply fine_bind; [apply extractRep_fine|]. intros [q t] Er. apply extractRep_sound in Er. subst rest. rewrite app_length in L. cbn [fst snd].
    apply fine_bind; [apply newSet_fine|]. intros r _. apply fine_bind; [apply parseRep_fine|]. intros m _. apply fine_bind; [apply IH; lia|]. intros; exact I.
Qed.
Lemma rt_new_fine : forall s x, s <> [] -> fine (rt_new re_count s x).
Proof using.
  intros s x Ne. unfold rt_new. destruct s as [|s0 s]; [contradiction|]. cbv zeta. apply fine_bind.
  - destruct (match _ with [] => false | _ => _ end); [exact I|]. apply fine_bind; [apply rx_list_fine; lia|intros; exact I].
  - intros sec _. apply fine_bind; [apply rx_list_fine; lia|intros; exact I].
Qed.
End P.

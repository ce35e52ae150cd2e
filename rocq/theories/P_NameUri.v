(* Proofs about M_Name: URI representation and numeric components *)
From Coq Require Import Lia ZifyBool ZifyNat ZifyN.
From Verif Require Import Base BaseLemmas M_Tlv P_Tlv S_Tlv P_Block M_Str P_Str M_Name S_Name P_Name.

Ltac eval_str := repeat match goal with
  |- context [str ?x] => let v := eval vm_compute in (str x) in change (str x) with v end.

Lemma ctype_of_cases : forall t,
  (exists p, ctype_of t = CtSha256 p /\ (t = 1 \/ t = 2)) \/
  (ctype_of t = CtGeneric /\ t = 8) \/
  (exists p, ctype_of t = CtDecimal p /\ (t = 50 \/ t = 52 \/ t = 54 \/ t = 56 \/ t = 58)) \/
  (ctype_of t = CtBase /\ t <> 1 /\ t <> 2 /\ t <> 8).
Proof.
  intro t. unfold ctype_of, tImplicitSha256DigestComponent, tParametersSha256DigestComponent,
    tGenericNameComponent, tKeywordNameComponent, tSegmentNameComponent, tByteOffsetNameComponent,
    tVersionNameComponent, tTimestampNameComponent, tSequenceNumNameComponent.
  destruct (t =? 1) eqn:E1; [left; eexists; split; [reflexivity|lia]|].
  destruct (t =? 2) eqn:E2; [left; eexists; split; [reflexivity|lia]|].
  right. destruct (t =? 8) eqn:E8; [left; split; [reflexivity|lia]|]. right.
  destruct (t =? 32) eqn:E32; [right; split; [reflexivity|lia]|].
  destruct (t =? 50) eqn:E50; [left; eexists; split; [reflexivity|lia]|].
  destruct (t =? 52) eqn:E52; [left; eexists; split; [reflexivity|lia]|].
  destruct (t =? 54) eqn:E54; [left; eexists; split; [reflexivity|lia]|].
  destruct (t =? 56) eqn:E56; [left; eexists; split; [reflexivity|lia]|].
  destruct (t =? 58) eqn:E58; [left; eexists; split; [reflexivity|lia]|].
  right; split; [reflexivity|lia].
Qed.

Lemma comp_valid_iff : forall t v, comp_valid t v = true <-> valid_key (t, v).
Proof.
  intros t v. unfold comp_valid, valid_key, NameComponentMin, NameComponentMax. cbn [fst snd].
  destruct (ctype_of_cases t) as [(p & -> & H)|[(-> & H)|[(p & -> & H)|(-> & H)]]]; lia.
Qed.

Lemma ensureValid_iff : forall c c', ensureValid c = Ok c' <-> valid_key (ckey c) /\ c' = c.
Proof.
  intros c c'. unfold ensureValid, ckey. rewrite <- comp_valid_iff.
  destruct (comp_valid _ _); split; try discriminate.
  - intros [= <-]. auto.
  - intros [_ ->]. auto.
  - intros [H _]. discriminate.
Qed.

Lemma ensureValid_err : forall c e, ensureValid c = Err e -> e = ETlv.
Proof. intros c e. unfold ensureValid. destruct (comp_valid _ _); congruence. Qed.

(* ---- escaped values ---- *)
Lemma allPeriods_repeat : forall v, allPeriods v = true -> v = repeat cPeriod (length v).
Proof.
  induction v as [|c v IH]; [reflexivity|]. unfold allPeriods. cbn [forallb].
  intro H. apply andb_prop in H as [H1 H2]. apply beqb_eq in H1. subst. cbn. f_equal. now apply IH.
Qed.

Lemma unescape_plain : forall c s, beqb c cPercent = false -> unescape (c :: s) = c :: unescape s.
Proof. intros c s H. cbn [unescape]. destruct s as [|h [|l t]]; auto. now rewrite H. Qed.

Lemma parse_write_value : forall t v, valid_key (t, v) ->
  parseUriEscapedValue t (writeUriEscapedValue v) = Ok (comp_of_elem (mkBlock t v)).
Proof.
  intros t v V. unfold parseUriEscapedValue, writeUriEscapedValue.
  assert (C : comp_ofSpan t v = Ok (comp_of_elem (mkBlock t v))).
  { apply ensureValid_iff. auto. }
  destruct (allPeriods v) eqn:P.
  - cbn [app]. rewrite !unescape_plain by reflexivity. rewrite unescape_escape.
    assert (A : allPeriods (cPeriod :: cPeriod :: cPeriod :: v) = true) by (cbn; exact P).
    rewrite A. rewrite !nlen_cons. destruct (1 + (1 + (1 + nlen v)) <? 3) eqn:L; [lia|].
    replace (1 + (1 + (1 + nlen v)) - 3) with (nlen v) by lia.
    replace (ntake (nlen v) (cPeriod :: cPeriod :: cPeriod :: v)) with v; auto.
    unfold ntake, nlen. rewrite Nat2N.id. rewrite (allPeriods_repeat v P). rewrite repeat_length.
    generalize (length v). clear. intro k. induction k as [|k IH]; [reflexivity|].
    cbn [repeat firstn]. f_equal. exact IH.
  - cbn [app]. rewrite unescape_escape, P. exact C.
Qed.

(* ---- characters ---- *)
Definition pathChar (x : byte) : bool := negb (beqb x cSlash) && negb (beqb x cColon).

Lemma uriChar_ok : forall c, uriChar c = true ->
  pathChar c = true /\ negb (beqb c cEqual) = true.
Proof.
  intros c H.
  assert (G : (implb (uriChar c) (pathChar c && negb (beqb c cEqual))) = true).
  { apply (all_bytes (fun c => implb (uriChar c) (pathChar c && negb (beqb c cEqual)))). vm_compute. reflexivity. }
  rewrite H in G. cbn [implb] in G. now apply andb_prop in G.
Qed.
Lemma isDigit_ok : forall c, isDigit c = true -> pathChar c = true /\ negb (beqb c cEqual) = true.
Proof.
  intros c H.
  assert (G : (implb (isDigit c) (pathChar c && negb (beqb c cEqual))) = true).
  { apply (all_bytes (fun c => implb (isDigit c) (pathChar c && negb (beqb c cEqual)))). vm_compute. reflexivity. }
  rewrite H in G. cbn [implb] in G. now apply andb_prop in G.
Qed.
Lemma toHex_chars : forall v, forallb pathChar (toHex false v) = true.
Proof.
  induction v as [|c v IH]; [reflexivity|]. cbn [toHex forallb].
  assert (G : pathChar (toHexChar (bn c / 16) false) && pathChar (toHexChar (bn c mod 16) false) = true).
  { apply (all_bytes (fun c => pathChar (toHexChar (bn c / 16) false) && pathChar (toHexChar (bn c mod 16) false))).
    vm_compute. reflexivity. }
  apply andb_prop in G as [-> ->]. exact IH.
Qed.

Lemma writeValue_chars : forall v, forallb uriChar (writeUriEscapedValue v) = true.
Proof.
  intro v. unfold writeUriEscapedValue. rewrite forallb_app, escape_chars.
  destruct (allPeriods v); reflexivity.
Qed.
Lemma writeValue_nonempty : forall v, writeUriEscapedValue v <> [].
Proof.
  intro v. unfold writeUriEscapedValue. destruct (allPeriods v) eqn:E; [discriminate|].
  destruct v as [|c v]; [discriminate|]. cbn [escape app]. destruct (isUnreserved c); discriminate.
Qed.

Lemma base_chars : forall c, forallb pathChar (writeUriBase c) = true /\ writeUriBase c <> [].
Proof.
  intro c. unfold writeUriBase. split.
  - rewrite forallb_app. apply andb_true_intro. split.
    + eapply forallb_impl; [|apply to_string_digits]. intros x H. now apply isDigit_ok.
    + cbn [forallb]. apply andb_true_intro. split; [reflexivity|].
      eapply forallb_impl; [|apply writeValue_chars]. intros x H. now apply uriChar_ok.
  - destruct (to_string_cons (c_type c)) as (x & s & -> & _). discriminate.
Qed.

Lemma toUri_chars : forall f c, forallb pathChar (comp_toUri f c) = true /\ comp_toUri f c <> [].
Proof.
  intros [] c; cbn [comp_toUri]; [apply base_chars|]. unfold writeUriAlt.
  destruct (ctype_of_cases (c_type c)) as [(p & E & H)|[(E & H)|[(p & E & H)|(E & H)]]]; rewrite E.
  - assert (P : forallb pathChar p = true /\ p <> []).
    { destruct H as [H|H]; rewrite H in E; cbn in E; injection E as <-; split; reflexivity || discriminate. }
    destruct P as [P1 P2]. split.
    + rewrite forallb_app, P1. cbn [forallb]. apply toHex_chars.
    + destruct p; [now destruct P2|discriminate].
  - split; [|apply writeValue_nonempty].
    eapply forallb_impl; [|apply writeValue_chars]. intros x Hx. now apply uriChar_ok.
  - destruct (toNumber c) as [n|e]; [|apply base_chars].
    assert (P : forallb pathChar p = true /\ p <> []).
    { destruct H as [H|[H|[H|[H|H]]]]; rewrite H in E; cbn in E; injection E as <-; split; reflexivity || discriminate. }
    destruct P as [P1 P2]. split.
    + rewrite forallb_app, P1. cbn [forallb andb]. eapply forallb_impl; [|apply to_string_digits].
      intros x Hx. now apply isDigit_ok.
    + destruct p; [now destruct P2|discriminate].
  - apply base_chars.
Qed.

(* ---- one component ---- *)
Lemma canonical_parse : forall c, valid_key (ckey c) ->
  comp_fromUri (writeUriBase c) = Ok (comp_of_elem (mkBlock (c_type c) (c_val c))).
Proof.
  intros c V. unfold comp_fromUri, writeUriBase. rewrite split_at_app.
  2:{ eapply forallb_impl; [|apply to_string_digits]. intros x H. now apply isDigit_ok. }
  pose proof V as (V1 & V2 & _). cbn [ckey fst] in V1, V2.
  rewrite strtoull_to_string; [|unfold two64; lia|reflexivity].
  assert (E : (NameComponentMin <=? c_type c) && (c_type c <=? NameComponentMax)
              && bytes_eqb (to_string (c_type c)) (to_string (c_type c)) = true).
  { rewrite bytes_eqb_refl. unfold NameComponentMin, NameComponentMax. lia. }
  rewrite E. now apply parse_write_value.
Qed.

Lemma strtoull_letter : forall c s, isSpace c = false -> beqb c x2d = false -> beqb c x2b = false ->
  isDigit c = false -> strtoull (c :: s) = (0, false, false).
Proof.
  intros c s H1 H2 H3 H4. unfold strtoull. cbn [skip_spaces]. rewrite H1. cbv zeta. rewrite H2, H3.
  cbn [read_digits]. rewrite H4. reflexivity.
Qed.

Lemma be_val_inj : forall a b, nlen a = nlen b -> be_val a = be_val b -> a = b.
Proof.
  intros a b L E. rewrite <- (be_enc_val a), <- (be_enc_val b), E.
  replace (length b) with (length a); auto. unfold nlen in L. lia.
Qed.

Lemma shortest_nni_unique : forall n d, n < 2 ^ 64 -> shortest_nni n d -> d = encNNI n.
Proof.
  intros n d L [[Hl E] S]. pose proof (encNNI_shortest n L) as [[Hl' E'] S'].
  assert (nlen d = nlen (encNNI n)).
  { specialize (S (encNNI n) (conj Hl' E')). specialize (S' d (conj Hl E)). lia. }
  rewrite big_endian_be_val in E, E'. apply be_val_inj; congruence.
Qed.

Lemma isNumber_iff : forall c, isNumber c = true <->
  (nlen (c_val c) = 1 \/ nlen (c_val c) = 2 \/ nlen (c_val c) = 4 \/ nlen (c_val c) = 8).
Proof. intro c. unfold isNumber. lia. Qed.

Lemma toNumber_enc : forall t h n, n < two64 -> toNumber (mkComp t h (encNNI n)) = Ok n.
Proof.
  intros t h n L. unfold toNumber.
  assert (isNumber (mkComp t h (encNNI n)) = true) as ->.
  { apply isNumber_iff. cbn [c_val]. rewrite encNNI_len. apply sizeOfNNI_cases. }
  cbn [c_val]. rewrite encNNI_len. pose proof (readNNI_enc n [] L) as R. rewrite app_nil_r in R.
  now rewrite R.
Qed.

Lemma toNumber_err : forall c e, toNumber c = Err e -> isNumber c = false.
Proof.
  intros c e H. unfold toNumber in H. destruct (isNumber c) eqn:E; auto.
  apply isNumber_iff in E.
  assert (R : readNonNegativeInteger (nlen (c_val c)) (c_val c) = Ok (be_val (c_val c), [])).
  { apply readNNI_ok_iff. split; auto. exists (c_val c). now rewrite app_nil_r. }
  rewrite R in H. discriminate.
Qed.

Lemma alternate_parse : forall c, valid_key (ckey c) -> alt_ok (ckey c) ->
  exists c', comp_fromUri (writeUriAlt c) = Ok c' /\ ckey c' = ckey c.
Proof.
  intros c V A. unfold writeUriAlt.
  destruct (ctype_of_cases (c_type c)) as [(p & E & H)|[(E & H)|[(p & E & H)|(E & H)]]]; rewrite E.
  - exists (mkComp (c_type c) None (c_val c)). split; [|reflexivity].
    assert (V' : comp_ofBuffer (c_type c) (c_val c) = Ok (mkComp (c_type c) None (c_val c))).
    { apply ensureValid_iff. split; auto. }
    assert (P : forall s, comp_fromUri (p ++ cEqual :: s) = parseAltUriValue (c_type c) s).
    { intro s. destruct H as [H|H]; rewrite H in *; cbn in E; injection E as <-;
        unfold comp_fromUri; (rewrite split_at_app by reflexivity); eval_str; cbn [app];
        (rewrite strtoull_letter by reflexivity); reflexivity. }
    rewrite P. unfold parseAltUriValue. rewrite E, fromHex_toHex. exact V'.
  - exists (comp_of_elem (mkBlock (c_type c) (c_val c))). split; [|reflexivity].
    unfold comp_fromUri. rewrite split_at_none.
    2:{ eapply forallb_impl; [|apply writeValue_chars]. intros x Hx. now apply uriChar_ok. }
    change tGenericNameComponent with 8. rewrite <- H. now apply parse_write_value.
  - destruct (toNumber c) as [n|e] eqn:EN.
    + assert (S : exists n, n < 2 ^ 64 /\ shortest_nni n (c_val c)).
      { apply A; [exact H|]. apply isNumber_iff. unfold toNumber in EN. destruct (isNumber c); [auto|discriminate]. }
      destruct S as (m & L & S). apply shortest_nni_unique in S; auto.
      destruct c as [t h v]. cbn [c_val c_type] in *. subst v.
      rewrite toNumber_enc in EN by auto. injection EN as ->.
      exists (comp_of_elem (mkNNIBlock t n)). split; [|reflexivity].
      assert (P : forall s, comp_fromUri (p ++ cEqual :: s) = parseAltUriValue t s).
      { intro s. destruct H as [H|[H|[H|[H|H]]]]; rewrite H in *; cbn in E; injection E as <-;
          unfold comp_fromUri; (rewrite split_at_app by reflexivity); eval_str; cbn [app];
          (rewrite strtoull_letter by reflexivity); reflexivity. }
      rewrite P. unfold parseAltUriValue. rewrite E, stoull_to_string, bytes_eqb_refl by auto.
      apply ensureValid_iff. auto.
    + exists (comp_of_elem (mkBlock (c_type c) (c_val c))). split; [|reflexivity]. now apply canonical_parse.
  - exists (comp_of_elem (mkBlock (c_type c) (c_val c))). split; [|reflexivity]. now apply canonical_parse.
Qed.

(* ---- names ---- *)
Definition slashed (us : list bytes) : bytes := concat (map (fun u => cSlash :: u) us).

Lemma uri_loop_parse : forall us u fuel,
  Forall (fun u => forallb pathChar u = true /\ u <> []) (u :: us) ->
  (length (u ++ slashed us) < fuel)%nat ->
  uri_loop fuel (u ++ slashed us) = map_res comp_fromUri (u :: us).
Proof.
  induction us as [|u' us IH]; intros u fuel F L.
  - unfold slashed in *. cbn [map concat] in *. rewrite app_nil_r in *.
    destruct fuel as [|fuel]; [lia|]. inversion F as [|? ? [Hu Nu] _]; subst. cbn [uri_loop].
    destruct u as [|x u]; [easy|]. rewrite split_at_none.
    2:{ eapply forallb_impl; [|exact Hu]. intros y Hy. now apply andb_prop in Hy. }
    cbn [map_res]. destruct (comp_fromUri (x :: u)); reflexivity.
  - destruct fuel as [|fuel]; [lia|]. inversion F as [|? ? [Hu Nu] F']; subst.
    assert (SE : slashed (u' :: us) = cSlash :: u' ++ slashed us) by reflexivity.
    rewrite SE in *. cbn [uri_loop].
    rewrite app_length in L. cbn [length] in L.
    assert (SP : split_at cSlash (u ++ cSlash :: u' ++ slashed us) = Some (u, u' ++ slashed us)).
    { apply split_at_app. eapply forallb_impl; [|exact Hu]. intros y Hy. now apply andb_prop in Hy. }
    destruct (u ++ cSlash :: u' ++ slashed us) as [|x l] eqn:EE; [destruct u; discriminate|].
    rewrite <- EE in *. clear EE x l. rewrite SP. change (map_res comp_fromUri (u :: u' :: us)) with
      (let! y := comp_fromUri u in let! ys := map_res comp_fromUri (u' :: us) in Ok (y :: ys)).
    destruct (comp_fromUri u) as [c|e]; [|reflexivity]. cbn [bind].
    rewrite <- (IH u' fuel F') by lia.
    destruct (u' ++ slashed us) as [|x l] eqn:EE; [|reflexivity].
    inversion F' as [|? ? [_ N'] _]; subst. apply app_eq_nil in EE as [-> _]. easy.
Qed.

Lemma nm_toUri_slashed : forall f c cs, nm_toUri f (nm_of (c :: cs)) =
  slashed (map (comp_toUri f) (c :: cs)).
Proof. intros. unfold nm_toUri, slashed. cbn [n_comps nm_of]. rewrite map_map. reflexivity. Qed.

Lemma uri_path_slashed : forall u us,
  Forall (fun u => forallb pathChar u = true /\ u <> []) (u :: us) ->
  uri_path (slashed (u :: us)) = Some (u ++ slashed us) /\
  forall sch, forallb pathChar sch = true -> uri_path (sch ++ cColon :: slashed (u :: us)) = Some (u ++ slashed us).
Proof.
  intros u us F.
  assert (NC : forallb (fun x => negb (beqb x cColon)) (slashed (u :: us)) = true).
  { clear - F. revert F. generalize (u :: us). intros l F. unfold slashed. induction F as [|x l [Hx _] F IH]; [reflexivity|].
    cbn [map concat app forallb]. rewrite forallb_app, IH, andb_true_r. cbn.
    eapply forallb_impl; [|exact Hx]. intros y Hy. now apply andb_prop in Hy. }
  assert (M : match slashed (u :: us) with
              | c :: r => if beqb c cSlash then match r with
                 | c2 :: r2 => if beqb c2 cSlash then match split_at cSlash r2 with Some (_, rest) => Some rest | None => None end else Some r
                 | [] => Some r end else Some (slashed (u :: us))
              | [] => Some (slashed (u :: us)) end = Some (u ++ slashed us)).
  { change (slashed (u :: us)) with (cSlash :: u ++ slashed us). cbn beta iota.
    change (beqb cSlash cSlash) with true. cbn iota.
    inversion F as [|? ? [Hu Nu] _]; subst. destruct u as [|x u]; [easy|]. cbn [app].
    cbn [forallb] in Hu. apply andb_prop in Hu as [Hx _]. apply andb_prop in Hx as [Hx _].
    destruct (beqb x cSlash); [discriminate|reflexivity]. }
  split.
  - unfold uri_path. rewrite (split_at_none cColon) by exact NC. cbv zeta. exact M.
  - intros sch Hs. unfold uri_path. rewrite split_at_app.
    2:{ eapply forallb_impl; [|exact Hs]. intros y Hy. now apply andb_prop in Hy. }
    rewrite (split_at_none cSlash). { cbv zeta. exact M. }
    eapply forallb_impl; [|exact Hs]. intros y Hy. now apply andb_prop in Hy.
Qed.

Lemma map_res_keys : forall f cs,
  Forall (fun c => exists c', comp_fromUri (comp_toUri f c) = Ok c' /\ ckey c' = ckey c) cs ->
  exists cs', map_res comp_fromUri (map (comp_toUri f) cs) = Ok cs' /\ map ckey cs' = map ckey cs.
Proof.
  intros f cs F. induction F as [|c cs (c' & E & K) F (cs' & E' & K')].
  - exists []. auto.
  - exists (c' :: cs'). cbn [map map_res]. rewrite E. cbn [bind]. rewrite E'. cbn [bind].
    split; auto. cbn. now rewrite K, K'.
Qed.

Lemma nm_uri_round_trip : forall f n sch,
  Forall (fun c => exists c', comp_fromUri (comp_toUri f c) = Ok c' /\ ckey c' = ckey c) (n_comps n) ->
  (sch = [] \/ exists s, forallb pathChar s = true /\ sch = s ++ [cColon]) ->
  exists m, nm_fromUri (sch ++ nm_toUri f n) = Ok m /\ nm_equals m n = true.
Proof.
  intros f n sch F S. destruct n as [cs w]. cbn [n_comps] in F.
  destruct cs as [|c cs].
  - exists nm_empty. split; [|reflexivity]. cbn [nm_toUri n_comps].
    destruct S as [->|(s & Hs & ->)]; [reflexivity|]. rewrite <- app_assoc. cbn [app].
    unfold nm_fromUri, uri_path. rewrite split_at_app.
    2:{ eapply forallb_impl; [|exact Hs]. intros y Hy. now apply andb_prop in Hy. }
    rewrite (split_at_none cSlash).
    2:{ eapply forallb_impl; [|exact Hs]. intros y Hy. now apply andb_prop in Hy. }
    destruct (s ++ [cColon; cSlash]) eqn:E; [now destruct s|]. reflexivity.
  - change (nm_toUri f (mkName (c :: cs) w)) with (nm_toUri f (nm_of (c :: cs))).
    rewrite nm_toUri_slashed. cbn [map].
    set (u := comp_toUri f c). set (us := map (comp_toUri f) cs).
    assert (FU : Forall (fun u => forallb pathChar u = true /\ u <> []) (u :: us)).
    { change (u :: us) with (map (comp_toUri f) (c :: cs)). apply Forall_map. apply Forall_forall.
      intros x _. apply toUri_chars. }
    destruct (uri_path_slashed u us FU) as [P1 P2].
    destruct (map_res_keys f (c :: cs) F) as (cs' & E & K). cbn [map] in E. fold u us in E.
    assert (R : uri_path (sch ++ slashed (u :: us)) = Some (u ++ slashed us)).
    { destruct S as [->|(s & Hs & ->)]; [exact P1|]. rewrite <- app_assoc. now apply P2. }
    exists (nm_of cs'). split.
    + unfold nm_fromUri. rewrite R. rewrite uri_loop_parse by (auto; lia).
      destruct (sch ++ slashed (u :: us)) eqn:EE; [|exact (f_equal (fun r => let! cs := r in Ok (nm_of cs)) E)].
      apply app_eq_nil in EE as [_ EE]. discriminate.
    + apply nm_equals_iff. exact K.
Qed.

Lemma canonical_round_trip : forall n sch, Forall valid_key (nkey n) ->
  (sch = [] \/ exists s, forallb pathChar s = true /\ sch = s ++ [cColon]) ->
  exists m, nm_fromUri (sch ++ nm_toUri CANONICAL n) = Ok m /\ nm_equals m n = true.
Proof.
  intros n sch V S. apply nm_uri_round_trip; auto. unfold nkey in V. rewrite Forall_map in V.
  eapply Forall_impl; [|exact V]. intros c Hc. eexists. split; [now apply canonical_parse|reflexivity].
Qed.

Lemma alternate_round_trip : forall n sch, Forall valid_key (nkey n) -> Forall alt_ok (nkey n) ->
  (sch = [] \/ exists s, forallb pathChar s = true /\ sch = s ++ [cColon]) ->
  exists m, nm_fromUri (sch ++ nm_toUri ALTERNATE n) = Ok m /\ nm_equals m n = true.
Proof.
  intros n sch V A S. apply nm_uri_round_trip; auto. unfold nkey in *. rewrite Forall_map in V, A.
  rewrite Forall_forall in *. intros c Hc. apply alternate_parse; auto.
Qed.

(* ---- parsing arbitrary text ---- *)
Lemma parseUriEscapedValue_total : forall t s,
  match parseUriEscapedValue t s with Ok c => valid_key (ckey c) | Err e => e = ETlv end.
Proof.
  intros t s. unfold parseUriEscapedValue.
  assert (H : forall v, match comp_ofSpan t v with Ok c => valid_key (ckey c) | Err e => e = ETlv end).
  { intro v. unfold comp_ofSpan. destruct (ensureValid _) eqn:E.
    - apply ensureValid_iff in E as [V ->]. exact V.
    - now apply ensureValid_err in E. }
  destruct (allPeriods _); [|apply H]. destruct (_ <? 3); [reflexivity|apply H].
Qed.

Lemma comp_fromUri_total : forall s,
  match comp_fromUri s with Ok c => valid_key (ckey c) | Err e => e = ETlv end.
Proof.
  intro s. unfold comp_fromUri.
  destruct (split_at cEqual s) as [[p r]|]; [|apply parseUriEscapedValue_total].
  destruct (strtoull s) as [[t a] b]. destruct (_ && _); [apply parseUriEscapedValue_total|].
  destruct (findByUriPrefix p) as [t'|] eqn:F; [|reflexivity].
  unfold findByUriPrefix in F. apply find_some in F as [_ F].
  assert (V : forall c, match ensureValid c with Ok c => valid_key (ckey c) | Err e => e = ETlv end).
  { intro c. destruct (ensureValid c) eqn:E.
    - apply ensureValid_iff in E as [V ->]. exact V.
    - now apply ensureValid_err in E. }
  unfold parseAltUriValue. destruct (ctype_of t'); try discriminate.
  - destruct (fromHex r) as [v|e] eqn:E; [apply V|]. apply fromHex_err in E. now subst.
  - unfold stoull. destruct (strtoull r) as [[n any] rg]. destruct (negb any); [reflexivity|].
    destruct rg; [reflexivity|].
    destruct (bytes_eqb (to_string n) r); [apply V|reflexivity].
Qed.

Lemma uri_loop_total : forall fuel s, (length s < fuel)%nat ->
  match uri_loop fuel s with Ok cs => Forall (fun c => valid_key (ckey c)) cs | Err e => e = ETlv end.
Proof.
  induction fuel as [|fuel IH]; intros s L; [lia|]. cbn [uri_loop].
  destruct s as [|x s]; [constructor|].
  destruct (split_at cSlash (x :: s)) as [[u r]|] eqn:E.
  - pose proof (comp_fromUri_total u) as T. destruct (comp_fromUri u) as [c|e]; cbn [bind]; auto.
    destruct r as [|y r]; [auto|].
    apply split_at_inv in E as [E _].
    specialize (IH (y :: r)). apply (f_equal (@length _)) in E. rewrite app_length in E. cbn [length] in *.
    specialize (IH ltac:(lia)). destruct (uri_loop fuel (y :: r)) as [cs|e]; cbn [bind]; auto.
  - pose proof (comp_fromUri_total (x :: s)) as T. destruct (comp_fromUri (x :: s)) as [c|e]; cbn [bind]; auto.
Qed.

Lemma nm_fromUri_total : forall s,
  match nm_fromUri s with Ok n => Forall valid_key (nkey n) | Err e => e = ETlv end.
Proof.
  intro s. unfold nm_fromUri. destruct s as [|x s]; [constructor|].
  destruct (uri_path (x :: s)) as [p|]; [|constructor].
  pose proof (uri_loop_total (S (length p)) p ltac:(lia)) as T.
  destruct (uri_loop _ p); cbn [bind]; auto. unfold nkey. cbn [n_comps nm_of]. now rewrite Forall_map.
Qed.

(* ---- numeric components ---- *)
Lemma fromKind_ok : forall e k n, n < two64 -> exists c, fromKind e k n = Ok c.
Proof.
  intros e k n L. unfold fromKind, fromNumber, fromNumberWithMarker, comp_ofBlock.
  destruct e; eexists; apply ensureValid_iff; (split; [|reflexivity]); unfold valid_key, ckey;
    destruct k; (splits; [discriminate|discriminate|intros [H|H]; discriminate H]).
Qed.

Lemma numeric_round_trip : forall e d k n c, n < 2 ^ 64 -> can_decode d e = true ->
  fromKind e k n = Ok c -> isKind d k c = true /\ toKind d k c = Ok n.
Proof.
  intros e d k n c L CD H.
  assert (NNI : nlen (encNNI n) = 1 \/ nlen (encNNI n) = 2 \/ nlen (encNNI n) = 4 \/ nlen (encNNI n) = 8).
  { rewrite encNNI_len. apply sizeOfNNI_cases. }
  assert (R : readNonNegativeInteger (nlen (encNNI n)) (encNNI n) = Ok (n, [])).
  { rewrite encNNI_len. pose proof (readNNI_enc n [] L) as R. now rewrite app_nil_r in R. }
  destruct e; cbn [fromKind can_decode] in *.
  - unfold fromNumberWithMarker, comp_ofBlock in H. apply ensureValid_iff in H as [_ ->].
    assert (M : isNumberWithMarker (kind_marker k) (comp_of_elem (mkBlock tGenericNameComponent (kind_marker k :: encNNI n))) = true).
    { unfold isNumberWithMarker. cbn [c_val comp_of_elem mkBlock e_val]. rewrite nlen_cons, beqb_refl. lia. }
    unfold isKind, toKind. rewrite CD, M. cbn [c_type comp_of_elem mkBlock e_type].
    rewrite N.eqb_refl. cbn [andb orb]. split; auto.
    unfold toNumberWithMarker. rewrite M. cbn [c_val comp_of_elem mkBlock e_val tl].
    rewrite nlen_cons. replace (1 + nlen (encNNI n) - 1) with (nlen (encNNI n)) by lia. now rewrite R.
  - unfold fromNumber, comp_ofBlock in H. apply ensureValid_iff in H as [_ ->].
    assert (M : isNumber (comp_of_elem (mkNNIBlock (kind_type k) n)) = true) by now apply isNumber_iff.
    unfold isKind, toKind. rewrite CD, M. cbn [c_type comp_of_elem mkNNIBlock mkBlock e_type].
    rewrite N.eqb_refl.
    assert (G : (kind_type k =? tGenericNameComponent) = false) by (destruct k; reflexivity).
    rewrite G, !andb_false_r. cbn [andb orb]. split; auto.
    unfold toNumber. rewrite M. cbn [c_val comp_of_elem mkNNIBlock mkBlock e_val]. now rewrite R.
  - unfold fromNumber, comp_ofBlock in H. apply ensureValid_iff in H as [_ ->].
    assert (M : isNumber (comp_of_elem (mkNNIBlock (kind_type k) n)) = true) by now apply isNumber_iff.
    unfold isKind, toKind. rewrite CD, M. cbn [c_type comp_of_elem mkNNIBlock mkBlock e_type].
    rewrite N.eqb_refl.
    assert (G : (kind_type k =? tGenericNameComponent) = false) by (destruct k; reflexivity).
    rewrite G, !andb_false_r. cbn [andb orb]. split; auto.
    unfold toNumber. rewrite M. cbn [c_val comp_of_elem mkNNIBlock mkBlock e_val]. now rewrite R.
Qed.

Lemma kinds_exclusive : forall d k k' c, isKind d k c = true -> isKind d k' c = true -> k = k'.
Proof.
  intros d k k' c H H'. unfold isKind in *.
  assert (KT : forall k, (kind_type k =? 8) = false) by (intros []; reflexivity).
  assert (MK : forall k k', kind_marker k = kind_marker k' -> k = k') by (intros [] []; discriminate || reflexivity).
  assert (TK : forall k k', kind_type k = kind_type k' -> k = k') by (intros [] []; discriminate || reflexivity).
  change tGenericNameComponent with 8 in *.
  destruct (c_type c =? 8) eqn:E8.
  - assert (forall k, (c_type c =? kind_type k) = false).
    { intro k0. specialize (KT k0). lia. }
    rewrite !H0, !andb_false_r, !orb_false_r in *. apply andb_prop in H as [_ H], H' as [_ H'].
    unfold isNumberWithMarker in *. apply andb_prop in H as [_ H], H' as [_ H'].
    destruct (c_val c); [discriminate|]. apply beqb_eq in H, H'. apply MK. congruence.
  - rewrite !andb_false_r in *. cbn [andb orb] in *.
    apply andb_prop in H as [H _], H' as [H' _]. apply andb_prop in H as [_ H], H' as [_ H']. apply TK. lia.
Qed.

(* is* holds exactly when to* succeeds *)
Lemma isKind_toKind : forall d k c, isKind d k c = is_ok (toKind d k c).
Proof.
  intros d k c. unfold isKind, toKind. change tGenericNameComponent with 8.
  assert (KT : forall k, (kind_type k =? 8) = false) by (intros []; reflexivity).
  assert (T : forall x, toNumber x = Err ETlv /\ isNumber x = false \/ is_ok (toNumber x) = true /\ isNumber x = true).
  { intro x. destruct (toNumber x) as [n|e] eqn:E.
    - right. split; auto. unfold toNumber in E. destruct (isNumber x); [auto|discriminate].
    - left. pose proof (toNumber_err _ _ E) as N. unfold toNumber in E. rewrite N in E. split; congruence. }
  assert (TM : is_ok (toNumberWithMarker (kind_marker k) c) = isNumberWithMarker (kind_marker k) c).
  { unfold toNumberWithMarker. destruct (isNumberWithMarker (kind_marker k) c) eqn:E; [|reflexivity].
    unfold isNumberWithMarker in E. destruct (c_val c) as [|b v] eqn:Ev; [rewrite andb_false_r in E; discriminate|].
    apply andb_prop in E as [E _]. cbn [tl]. rewrite nlen_cons in *. replace (1 + nlen v - 1) with (nlen v) by lia.
    assert (R : readNonNegativeInteger (nlen v) v = Ok (be_val v, [])).
    { apply readNNI_ok_iff. split; [lia|]. exists v. now rewrite app_nil_r. }
    now rewrite R. }
  specialize (KT k). specialize (T c).
  destruct (c_type c =? 8) eqn:E8.
  - assert (c_type c =? kind_type k = false) by lia. rewrite H, !andb_false_r, !andb_true_r, orb_false_r.
    destruct (canDecodeMarker d); cbn [andb]; auto.
  - rewrite !andb_false_r. cbn [andb orb].
    destruct (canDecodeTyped d && (c_type c =? kind_type k)); cbn [andb]; auto.
    destruct T as [[-> ->]|[-> ->]]; reflexivity.
Qed.

(* ---- percent-encoding ---- *)
Lemma isUnreserved_iff : forall c, isUnreserved c = true <-> unreserved c.
Proof.
  intro c. unfold isUnreserved, unreserved, between. rewrite !orb_true_iff, !beqb_eq. rewrite !andb_true_iff, !N.leb_le. tauto.
Qed.
Lemma upper_hex_toHexChar : forall n, n < 16 -> upper_hex n (toHexChar n true).
Proof.
  intros n H. unfold upper_hex, toHexChar. rewrite N.mod_small by auto.
  destruct (n <? 10) eqn:E; rewrite bn_nb; rewrite N.mod_small; lia.
Qed.
Lemma escape_pct : forall s, pct_code s (escape s).
Proof.
  induction s as [|c s IH]; cbn [escape]; [constructor|]. pose proof (bn_lt c).
  destruct (isUnreserved c) eqn:U.
  - constructor; auto. now apply isUnreserved_iff.
  - apply pct_esc; auto; try (apply upper_hex_toHexChar; lia).
    intro H'. apply isUnreserved_iff in H'. congruence.
Qed.

(* ---- components made by the API have shortest headers ---- *)
Lemma mkBlock_shortest : forall t v, t < two32 -> nlen v < two64 -> comp_shortest (comp_of_elem (mkBlock t v)).
Proof.
  intros t v T L. unfold comp_shortest. cbn [comp_of_elem c_hdr c_type c_val mkBlock e_hdr e_type e_val].
  exists (encVarNumber t), (encVarNumber (nlen v)). unfold two32, two64 in *.
  splits; [apply encVarNumber_shortest; change (2 ^ 64) with 18446744073709551616; lia|now apply encVarNumber_shortest|].
  reflexivity.
Qed.

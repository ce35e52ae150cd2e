From Coq Require Import ZArith Lia ZifyBool ZifyNat ZifyN.
From Verif Require Import Base BaseLemmas M_Tlv M_Name S_Name P_Name P_NameUri M_Packet S_Ims M_StatusDataset S_StatusDataset.
Open Scope N_scope.

Lemma did_app : forall f a b, did f (a ++ b) = did f a || did f b.
Proof. intros. apply existsb_app. Qed.
Lemma did1 : forall f o r, did f [(o, r)] = f o && match r with None => true | _ => false end.
Proof. intros. unfold did. cbn. apply orb_false_r. Qed.
Lemma appended_app : forall a b, appended (a ++ b) = appended a ++ appended b.
Proof.
  induction a as [|[o r] a IH]; intro b; cbn; [reflexivity|]. destruct o, r; cbn; rewrite ?IH, ?app_assoc; reflexivity.
Qed.
Lemma segments_snoc : forall conv p chunks evs i ch c, segments conv p i false chunks evs -> fromKind conv KSegment (i + nlen chunks) = Ok c ->
  segments conv p i false (chunks ++ [ch]) (evs ++ [SdData (nm_append c p) ch false]).
Proof.
  intros conv p. induction chunks as [|x chunks IH]; intros [|ev evs] i ch c H K; cbn in H; try contradiction; cbn [app segments].
  - split; [|exact Logic.I]. exists c. rewrite nlen_nil, N.add_0_r in K. auto.
  - destruct H as [H1 H2]. split; [exact H1|]. apply IH; auto. rewrite nlen_cons in K. replace (i + 1 + nlen chunks) with (i + (1 + nlen chunks)) by lia. exact K.
Qed.
Lemma segments_final : forall conv p chunks evs i ch c, segments conv p i false chunks evs -> fromKind conv KSegment (i + nlen chunks) = Ok c ->
  segments conv p i true (chunks ++ [ch]) (evs ++ [SdData (nm_append c p) ch true]).
Proof.
  intros conv p. induction chunks as [|x chunks IH]; intros [|ev evs] i ch c H K; cbn in H; try contradiction; cbn [app segments].
  - split; [|exact Logic.I]. exists c. rewrite nlen_nil, N.add_0_r in K. auto.
  - destruct H as [(k & H0 & H1) H2]. split.
    + exists k. split; auto. rewrite H1. cbn. destruct chunks; reflexivity.
    + apply IH; auto. rewrite nlen_cons in K. replace (i + 1 + nlen chunks) with (i + (1 + nlen chunks)) by lia. exact K.
Qed.

Section P.
Variables conv dconv : convention.
Notation run := (sd_run conv dconv (fun _ => false)).
Notation step := (sd_step conv dconv (fun _ => false)).

(* the state between the first append and end *)
Definition body (s : sdctx) (app : bytes) : Prop :=
  exists chunks, segments conv (sd_prefix s) 0 false chunks (sd_log s) /\ Forall (fun ch : bytes => nlen ch = 8000) chunks /\
    sd_segno s = nlen chunks /\ nlen (sd_buf s) <= 8000 /\ concat chunks ++ sd_buf s = app /\ (sd_buf s = [] -> chunks = []).

Lemma concat_len : forall (l : list bytes), Forall (fun ch : bytes => nlen ch = 8000) l -> nlen (concat l) = 8000 * nlen l.
Proof. induction 1 as [|x l H1 H2 IH]; [reflexivity|]. cbn [concat]. rewrite nlen_app, IH, nlen_cons, H1. lia. Qed.

Lemma append_loop_ok : forall k bs s app, (length bs <= k)%nat -> body s app -> nlen (app ++ bs) < two64 ->
  exists s', sd_append_loop conv (fun _ => false) k bs s = (s', None) /\ body s' (app ++ bs) /\ sd_state s' = sd_state s /\ sd_prefix s' = sd_prefix s /\ sd_interest s' = sd_interest s.
Proof.
  induction k as [|k IH]; intros bs s app0 L (chunks & SG & FU & NO & LB & CC & EM) LN.
  - destruct bs; [|cbn in L; lia]. exists s. cbn. rewrite app_nil_r. splits; auto. exists chunks; splits; auto.
  - destruct bs as [|b bs]; [exists s; cbn; rewrite app_nil_r; splits; auto; exists chunks; splits; auto|].
    assert (B8 : nlen (concat chunks) + nlen (sd_buf s) < two64) by (rewrite <- nlen_app, CC; rewrite nlen_app in LN; lia).
    rewrite (concat_len _ FU) in B8. assert (SN : sd_segno s + 1 < two64 \/ nlen (sd_buf s) < 8000) by (unfold two64 in *; lia).
    cbn [sd_append_loop].
    assert (S1 : exists s1, (if nlen (sd_buf s) =? MAX_PAYLOAD_LENGTH
        then match sd_segment conv (fun _ => false) (sd_segno s) false (sdSegno ((sd_segno s + 1) mod two64) s) with
             | (s', None) => (sdBuf [] s', None) | p => p end else (s, None)) = (s1, None) /\ nlen (sd_buf s1) < 8000 /\
        sd_state s1 = sd_state s /\ sd_prefix s1 = sd_prefix s /\ sd_interest s1 = sd_interest s /\
        exists chunks', segments conv (sd_prefix s1) 0 false chunks' (sd_log s1) /\ Forall (fun ch : bytes => nlen ch = 8000) chunks' /\
          sd_segno s1 = nlen chunks' /\ concat chunks' ++ sd_buf s1 = app0).
    { destruct (N.eqb_spec (nlen (sd_buf s)) MAX_PAYLOAD_LENGTH) as [Z|Z].
      - change MAX_PAYLOAD_LENGTH with 8000 in Z. unfold sd_segment. destruct (fromKind_ok conv KSegment (sd_segno s)) as [c Hc]; [unfold two64 in *; lia|].
        rewrite Hc. unfold sd_emit. cbn [sd_calls sdSegno]. eexists. split; [reflexivity|]. cbn. splits; auto; [lia|].
        exists (chunks ++ [sd_buf s]). splits.
        + apply segments_snoc; auto. rewrite N.add_0_l, <- NO. exact Hc.
        + apply Forall_app. split; auto.
        + rewrite nlen_app, N.mod_small by (unfold two64 in *; lia). rewrite nlen_cons, nlen_nil. lia.
        + rewrite concat_app. cbn. rewrite !app_nil_r. exact CC.
      - change MAX_PAYLOAD_LENGTH with 8000 in Z. exists s. split; [reflexivity|]. splits; auto; [lia|]. exists chunks. splits; auto. }
    destruct S1 as (s1 & -> & LB1 & ST & PR & IN & chunks' & SG1 & FU1 & NO1 & CC1).
    change MAX_PAYLOAD_LENGTH with 8000. set (m := N.min (nlen (b :: bs)) (8000 - nlen (sd_buf s1))).
    assert (M1 : 1 <= m) by (unfold m; rewrite nlen_cons; lia). assert (M2 : m <= nlen (b :: bs)) by (unfold m; lia).
    destruct (IH (ndrop m (b :: bs)) (sdBuf (sd_buf s1 ++ ntake m (b :: bs)) s1) (app0 ++ ntake m (b :: bs))) as (s' & R1 & R2 & R3 & R4 & R5).
    + assert (X : nlen (ndrop m (b :: bs)) = nlen (b :: bs) - m) by (apply nlen_ndrop). unfold nlen in X at 1. rewrite nlen_cons in X. unfold nlen in X. cbn in L. lia.
    + exists chunks'. cbn. splits; auto.
      * rewrite nlen_app, nlen_ntake by exact M2. unfold m. lia.
      * rewrite app_assoc, CC1. reflexivity.
      * intro E. apply (f_equal nlen) in E. rewrite nlen_app, nlen_ntake, nlen_nil in E by exact M2. lia.
    + rewrite <- app_assoc, ntake_ndrop. exact LN.
    + exists s'. rewrite <- app_assoc, ntake_ndrop in R2. cbn in R3, R4, R5. splits; auto; congruence.
Qed.

(* the invariant over histories *)
Definition Inv (h : list (sdop * option err)) (s : sdctx) : Prop :=
  match sd_state s with
  | SdInitial => did is_any h = false /\ sd_log s = [] /\ sd_buf s = [] /\ sd_segno s = 0 /\ appended h = []
  | SdResponded => did is_append h = true /\ did is_end h = false /\ did is_reject h = false /\ body s (appended h)
  | SdFinalized =>
      (did is_reject h = true /\ did is_append h = false /\ did is_end h = false /\ appended h = [] /\ exists r, sd_log s = [SdNack r] /\ In (SdReject r, None) h) \/
      (did is_end h = true /\ did is_reject h = false /\
       exists chunks last, segments conv (sd_prefix s) 0 true (chunks ++ [last]) (sd_log s) /\ Forall (fun ch : bytes => nlen ch = 8000) chunks /\
         nlen last <= 8000 /\ concat chunks ++ last = appended h /\ (last = [] -> chunks = []))
  end.

Lemma at_last : forall p, (n_comps p = [] /\ nm_at (-1) p = Err ETlv) \/ (exists f c, n_comps p = f ++ [c] /\ nm_at (-1) p = Ok c).
Proof.
  intros [cs w]. unfold nm_at, nm_index, nm_size. cbn [n_comps]. destruct cs as [|x l _] using rev_ind; [left; split; reflexivity|]. right. exists l, x. split; auto.
  rewrite nlen_app, nlen_cons, nlen_nil. cbn [Z.ltb Z.compare]. destruct (_ || _) eqn:O; [lia|].
  replace (Z.to_nat _) with (length l) by (unfold nlen; lia). rewrite nth_error_app2, Nat.sub_diag by lia. reflexivity.
Qed.
Lemma step_inv : forall iname h o s s' r, Inv h s -> sd_interest s = iname -> step o s = (s', r) ->
  (forall bs, o = SdAppend bs -> nlen (appended h ++ bs) < two64) -> nlen (appended h) < two64 -> (forall p c, o = SdSetPrefix p c -> c < two64) ->
  Inv (h ++ [(o, r)]) s' /\ answers dconv iname h o r /\ sd_interest s' = iname.
Proof.
  intros iname h o s s' r IV IN ST LA LH LC.
  assert (ANY : did is_any h = did is_append h || did is_end h || did is_reject h).
  { clear. induction h as [|[o r] h IH]; [reflexivity|]. unfold did in *. cbn. rewrite IH. destruct o, r; cbn; repeat (destruct existsb); reflexivity. }
  destruct o as [p clock|bs| |resp]; cbn [sd_step] in ST.
  - (* setPrefix *)
    assert (REFUSED : forall x, (s', r) = (s, Some x) -> Inv (h ++ [(SdSetPrefix p clock, r)]) s').
    { intros x E. injection E as -> ->. unfold Inv in *. rewrite appended_app. cbn [appended]. rewrite app_nil_r.
      rewrite !did_app, !did1. cbn [is_any is_append is_end is_reject andb]. rewrite !orb_false_r.
      destruct (sd_state s); auto. destruct IV as [(A & B & C & D & q & E1 & E2)|IV]; [left|right; auto].
      splits; auto. exists q. rewrite in_app_iff. auto. }
    unfold sd_setPrefix in ST. destruct (sd_state s) eqn:SS.
    + unfold Inv in IV. rewrite SS in IV. destruct IV as (A & B & C & D & E). cbn [answers]. rewrite A.
      destruct (nm_isPrefixOf (sd_interest s) p) eqn:PX; cbn [negb] in ST.
      2:{ split; [apply (REFUSED EInvalidArg); congruence|]. injection ST as <- <-. split; auto. right. left. split; auto. left. intros [t T].
          rewrite <- IN in T. assert (X : nm_isPrefixOf (sd_interest s) p = true) by (apply nm_isPrefixOf_iff; eauto). congruence. }
      apply nm_isPrefixOf_iff in PX. rewrite IN in PX.
      destruct (at_last p) as [[NE AT]|(f & c & NE & AT)]; rewrite AT in ST.
      { split; [apply (REFUSED ETlv); congruence|]. injection ST as <- <-. split; auto. }
      destruct (isKind dconv KSegment c) eqn:SG.
      { split; [apply (REFUSED EInvalidArg); congruence|]. injection ST as <- <-. split; auto. right. left. split; auto. right. eauto. }
      assert (OKI : forall q, Inv (h ++ [(SdSetPrefix p clock, None)]) (sdPrefix q s)).
      { intro q. unfold Inv. cbn [sd_state sdPrefix]. rewrite SS. rewrite did_app, did1, appended_app. cbn. rewrite A, E. auto. }
      destruct (isKind dconv KVersion c).
      { injection ST as <- <-. splits; auto. left. splits; eauto. }
      destruct (fromKind_ok conv KVersion clock) as [v V]; [eapply LC; reflexivity|]. rewrite V in ST. injection ST as <- <-. splits; auto. left. splits; eauto.
    + split; [apply (REFUSED ELogic); congruence|]. injection ST as <- <-. split; auto. unfold Inv in IV. rewrite SS in IV. cbn [answers]. rewrite ANY. destruct IV as (-> & _). reflexivity.
    + split; [apply (REFUSED ELogic); congruence|]. injection ST as <- <-. split; auto. unfold Inv in IV. rewrite SS in IV. cbn [answers]. rewrite ANY.
      destruct IV as [(-> & -> & -> & _)|(-> & -> & _)]; [reflexivity|]. rewrite orb_true_r. reflexivity.
  - (* append *)
    unfold sd_append in ST. cbn [answers].
    assert (GO : forall s1, sd_interest s1 = iname -> sd_state s1 = SdResponded -> did is_end h = false -> did is_reject h = false -> body s1 (appended h) ->
      sd_append_loop conv (fun _ => false) (length bs) bs s1 = (s', r) ->
      Inv (h ++ [(SdAppend bs, r)]) s' /\ r = (if did is_end h || did is_reject h then Some ELogic else None) /\ sd_interest s' = iname).
    { intros s1 I1 S1 DE DR BO E. destruct (append_loop_ok (length bs) bs s1 (appended h) (le_n _) BO (LA bs eq_refl)) as (s2 & Q & B2 & S2 & _ & I2).
      rewrite Q in E. injection E as <- <-. rewrite DE, DR. splits; auto; [|congruence]. unfold Inv. rewrite S2, S1, appended_app, !did_app, !did1, DE, DR. cbn. rewrite app_nil_r.
      rewrite orb_true_r. auto. }
    unfold Inv in IV. destruct (sd_state s) eqn:SS.
    + destruct IV as (A & B & C & D & E). rewrite A in ANY. symmetry in ANY. apply orb_false_iff in ANY as [ANY DR]. apply orb_false_iff in ANY as [DA DE].
      eapply (GO (sdState SdResponded s)); auto. exists []. cbn. rewrite B, C, D, E. splits; auto; rewrite nlen_nil; lia.
    + destruct IV as (A & B & C & D). eapply (GO (sdState SdResponded s)); auto.
    + injection ST as <- <-. splits; auto.
      * unfold Inv. rewrite SS, appended_app. cbn [appended]. rewrite app_nil_r, !did_app, !did1. cbn [is_append is_end is_reject andb]. rewrite !orb_false_r.
        destruct IV as [(A & B & C & D & q & E1 & E2)|IV]; [left; splits; auto; exists q; rewrite in_app_iff; auto|right; auto].
      * destruct IV as [(-> & _ & -> & _)|(-> & -> & _)]; reflexivity.
  - (* end *)
    unfold sd_end in ST. cbn [answers].
    assert (GO : did is_end h = false -> did is_reject h = false -> body s (appended h) ->
      (let s1 := sdState SdFinalized s in if MAX_PAYLOAD_LENGTH <? nlen (sd_buf s1) then (s1, Some EAssert) else sd_segment conv (fun _ => false) (sd_segno s1) true s1) = (s', r) ->
      Inv (h ++ [(SdEnd, r)]) s' /\ r = (if did is_end h || did is_reject h then Some ELogic else None) /\ sd_interest s' = iname).
    { intros DE DR (chunks & SG & FU & NO & LB & CC & EM) E. cbn zeta in E. cbn [sd_buf sdState sd_segno] in E. change MAX_PAYLOAD_LENGTH with 8000 in E.
      destruct (N.ltb_spec 8000 (nlen (sd_buf s))); [lia|]. unfold sd_segment in E.
      destruct (fromKind_ok conv KSegment (sd_segno s)) as [c Hc].
      { rewrite <- CC, nlen_app, (concat_len _ FU) in LH. unfold two64 in *. lia. }
      rewrite Hc in E. unfold sd_emit in E. cbn in E. injection E as <- <-. rewrite DE, DR. splits; auto.
      unfold Inv. cbn [sd_state sd_log sd_prefix]. right. rewrite !did_app, !did1, appended_app, DR. cbn. rewrite orb_true_r, app_nil_r. splits; auto.
      exists chunks, (sd_buf s). splits; auto. apply segments_final; auto. rewrite N.add_0_l, <- NO. exact Hc. }
    unfold Inv in IV. destruct (sd_state s) eqn:SS.
    + destruct IV as (A & B & C & D & E). rewrite A in ANY. symmetry in ANY. apply orb_false_iff in ANY as [ANY DR]. apply orb_false_iff in ANY as [DA DE].
      apply GO; auto. exists []. rewrite B, C, D, E. splits; auto; try reflexivity; try (rewrite nlen_nil; lia).
    + destruct IV as (A & B & C & D). apply GO; auto.
    + injection ST as <- <-. splits; auto.
      * unfold Inv. rewrite SS, appended_app. cbn [appended]. rewrite app_nil_r, !did_app, !did1. cbn [is_append is_end is_reject andb]. rewrite !orb_false_r.
        destruct IV as [(A & B & C & D & q & E1 & E2)|IV]; [left; splits; auto; exists q; rewrite in_app_iff; auto|right; auto].
      * destruct IV as [(-> & _ & -> & _)|(-> & -> & _)]; reflexivity.
  - (* reject *)
    unfold sd_reject in ST. cbn [answers]. unfold Inv in IV. destruct (sd_state s) eqn:SS.
    + destruct IV as (A & B & C & D & E). unfold sd_emit in ST. cbn in ST. injection ST as <- <-. rewrite A. splits; auto.
      rewrite A in ANY. symmetry in ANY. apply orb_false_iff in ANY as [ANY DR]. apply orb_false_iff in ANY as [DA DE].
      unfold Inv. cbn [sd_state sd_log]. left. rewrite !did_app, !did1, DA, DE, DR, appended_app, E, B. cbn. splits; auto. exists resp. rewrite in_app_iff. cbn. auto.
    + injection ST as <- <-. destruct IV as (A & B & C & D). rewrite ANY, A. cbn [orb]. splits; auto.
      unfold Inv. rewrite SS, !did_app, !did1, appended_app, A, B, C. cbn. rewrite app_nil_r. auto.
    + injection ST as <- <-. assert (AT : did is_any h = true) by (rewrite ANY; destruct IV as [(-> & -> & -> & _)|(-> & -> & _)]; rewrite ?orb_true_r; reflexivity).
      rewrite AT. splits; auto.
      unfold Inv. rewrite SS, appended_app. cbn [appended]. rewrite app_nil_r, !did_app, !did1. cbn [is_append is_end is_reject andb]. rewrite !orb_false_r.
      destruct IV as [(A & B & C & D & q & E1 & E2)|IV]; [left; splits; auto; exists q; rewrite in_app_iff; auto|right; auto].
Qed.

Lemma run_inv : forall iname l s h s' h', Inv h s -> sd_interest s = iname -> run l s = (s', h') ->
  nlen (appended h) + nlen (concat (map (fun o => match o with SdAppend bs => bs | _ => [] end) l)) < two64 ->
  (forall p c, In (SdSetPrefix p c) l -> c < two64) ->
  Inv (h ++ h') s' /\ forall a o r b, h' = a ++ (o, r) :: b -> answers dconv iname (h ++ a) o r.
Proof.
  intros iname. induction l as [|o l IH]; intros s h s' h' IV IN R LN LC; cbn [sd_run] in R.
  - injection R as <- <-. rewrite app_nil_r. split; auto. intros [|] ? ? ? E; discriminate.
  - destruct (step o s) as [s1 r] eqn:ST. destruct (run l s1) as [s2 rs] eqn:R2. injection R as <- <-. cbn [map concat] in LN.
    rewrite nlen_app in LN. set (x := match o with SdAppend bs => bs | _ => [] end) in *.
    destruct (step_inv iname h o s s1 r IV IN ST) as (IV1 & AN & IN1).
    + intros bs ->. subst x. rewrite nlen_app. cbn beta iota in LN. lia.
    + lia.
    + intros p c ->. eapply LC. left. reflexivity.
    + assert (AL : nlen (appended (h ++ [(o, r)])) <= nlen (appended h) + nlen x).
      { rewrite appended_app, nlen_app. subst x. destruct o, r; cbn [appended]; rewrite ?app_nil_r, ?nlen_nil; lia. }
      destruct (IH s1 (h ++ [(o, r)]) s2 rs IV1 IN1 R2) as [IV2 AN2]; [lia|intros p c I; eapply LC; right; exact I|].
      rewrite <- app_assoc in IV2. split; auto. intros [|y a] o' r' b E; cbn in E.
      * injection E as <- <- <-. rewrite app_nil_r. exact AN.
      * injection E as <- E. specialize (AN2 _ _ _ _ E). rewrite <- app_assoc in AN2. exact AN2.
Qed.
End P.
(* the prefix: extends the name of the Interest and ends with a version *)
Definition prefix_ok (dconv : convention) (iname p : name) : Prop :=
  is_prefix (nkey iname) (nkey p) /\ exists f c, n_comps p = f ++ [c] /\ isKind dconv KVersion c = true.
Lemma prefix_append : forall iname p v, is_prefix (nkey iname) (nkey p) -> is_prefix (nkey iname) (nkey (nm_append v p)).
Proof. intros iname p v [t T]. exists (t ++ [ckey v]). unfold nkey in *. cbn. rewrite map_app, T. cbn. now rewrite app_assoc. Qed.
Lemma setPrefix_prefix : forall conv dconv p clock s s' r iname, can_decode dconv conv = true -> clock < two64 -> sd_interest s = iname ->
  sd_setPrefix conv dconv p clock s = (s', r) -> (r = None \/ prefix_ok dconv iname (sd_prefix s)) -> prefix_ok dconv iname (sd_prefix s') /\ sd_interest s' = iname.
Proof.
  intros conv dconv p clock s s' r iname CD LC IN H K. unfold sd_setPrefix in H.
  assert (REF : forall x, (s, Some x) = (s', r) -> prefix_ok dconv iname (sd_prefix s') /\ sd_interest s' = iname).
  { intros x E. injection E as <- <-. destruct K as [|K]; [discriminate|]. auto. }
  destruct (sd_state s); try (eapply REF; eassumption).
  destruct (nm_isPrefixOf (sd_interest s) p) eqn:PX; cbn [negb] in H; [|eapply REF; eassumption]. apply nm_isPrefixOf_iff in PX. rewrite IN in PX.
  destruct (at_last p) as [[NE AT]|(f & c & NE & AT)]; rewrite AT in H; [eapply REF; eassumption|].
  destruct (isKind dconv KSegment c); [eapply REF; eassumption|]. destruct (isKind dconv KVersion c) eqn:V.
  - injection H as <- <-. cbn. split; auto. split; [exact PX|eauto].
  - destruct (fromKind_ok conv KVersion clock LC) as [v HV]. rewrite HV in H. injection H as <- <-. cbn. split; auto. split; [apply prefix_append; exact PX|].
    exists (n_comps p), v. split; [reflexivity|]. eapply numeric_round_trip; eauto.
Qed.
Lemma append_loop_prefix : forall conv thr k bs s s' r, sd_append_loop conv thr k bs s = (s', r) -> sd_prefix s' = sd_prefix s /\ sd_interest s' = sd_interest s.
Proof.
  intros conv thr. induction k as [|k IH]; intros bs s s' r H; destruct bs; cbn [sd_append_loop] in H; try (injection H as <- <-; auto; fail).
  destruct (nlen (sd_buf s) =? MAX_PAYLOAD_LENGTH).
  - unfold sd_segment in H. destruct (fromKind conv KSegment (sd_segno s)) as [c|x]; [|injection H as <- <-; auto].
    unfold sd_emit in H. destruct (thr _); [injection H as <- <-; auto|]. apply IH in H. exact H.
  - apply IH in H. exact H.
Qed.
Lemma run_prefix : forall conv dconv thr iname l s s' h, can_decode dconv conv = true -> (forall p c, In (SdSetPrefix p c) l -> c < two64) ->
  prefix_ok dconv iname (sd_prefix s) -> sd_interest s = iname -> sd_run conv dconv thr l s = (s', h) -> prefix_ok dconv iname (sd_prefix s').
Proof.
  intros conv dconv thr iname l. induction l as [|o l IH]; intros s s' h CD LC PO IN R; cbn [sd_run] in R; [injection R as <- <-; auto|].
  destruct (sd_step conv dconv thr o s) as [s1 r] eqn:ST. destruct (sd_run conv dconv thr l s1) as [s2 rs] eqn:R2. injection R as <- <-.
  assert (X : prefix_ok dconv iname (sd_prefix s1) /\ sd_interest s1 = iname).
  { destruct o as [p clock|bs| |resp]; cbn [sd_step] in ST.
    - eapply (setPrefix_prefix conv dconv p clock); eauto. eapply LC. left. reflexivity.
    - unfold sd_append in ST. destruct (sd_state s); try (injection ST as <- <-; auto; fail); apply append_loop_prefix in ST as [-> ->]; auto.
    - unfold sd_end, sd_segment, sd_emit in ST. destruct (sd_state s); try (injection ST as <- <-; auto; fail); destruct (MAX_PAYLOAD_LENGTH <? _);
        try (injection ST as <- <-; auto; fail); destruct (fromKind conv KSegment _); try (injection ST as <- <-; auto; fail); destruct (thr _); injection ST as <- <-; auto.
    - unfold sd_reject, sd_emit in ST. destruct (sd_state s); try (injection ST as <- <-; auto; fail). destruct (thr _); injection ST as <- <-; auto. }
  destruct X as [P1 I1]. eapply IH; eauto. intros p c I. eapply LC. right. exact I.
Qed.
Lemma new_inv : forall conv dconv iname clock s, sd_new conv dconv iname clock = Ok s -> clock < two64 -> can_decode dconv conv = true ->
  Inv conv [] s /\ sd_interest s = iname /\ prefix_ok dconv iname (sd_prefix s).
Proof.
  intros conv dconv iname clock s H LC CD. unfold sd_new in H. destruct (sd_setPrefix _ _ _ _ _) as [s1 r] eqn:E. destruct r; [discriminate|]. injection H as ->.
  destruct (setPrefix_prefix conv dconv iname clock (mkSd iname nm_empty [] 0 SdInitial [] 0) s None iname CD LC eq_refl E (or_introl eq_refl)) as [P I]. splits; auto.
  unfold sd_setPrefix in E. cbn [sd_state sd_interest] in E. destruct (negb _); [discriminate|]. destruct (nm_at (-1) iname) as [c|]; [|discriminate].
  destruct (isKind dconv KSegment c); [discriminate|]. destruct (isKind dconv KVersion c); [|destruct (fromKind conv KVersion clock); [|discriminate]]; injection E as <-; cbn; auto.
Qed.
